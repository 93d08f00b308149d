(** Proofs about the tagged field operations: conversions, + - * neg. *)
From Coq Require Import ZArith List Lia Bool Znumtheory ZifyBool.
From Verif Require Import Limbs LimbsFacts Gen GenFacts Raw Spec MontFacts RawFacts Fr FrSpec ModRing.
Import ListNotations.
Open Scope Z_scope.

(** ** Bookkeeping of changed elements *)
Definition chgs (S : list ptr) (m m' : mem) : Prop := forall p, ~ In p S -> same_at p m m'.

Lemma chgs_trans S1 S2 m1 m2 m3 : chgs S1 m1 m2 -> chgs S2 m2 m3 -> chgs (S1 ++ S2) m1 m3.
Proof.
  intros H1 H2 p Hp. rewrite in_app_iff in Hp.
  destruct (H1 p ltac:(tauto)) as (A1 & A2 & A3). destruct (H2 p ltac:(tauto)) as (A4 & A5 & A6).
  unfold same_at. rewrite A4, A5, A6. auto.
Qed.
Lemma chgs_weaken S1 S2 m m' : chgs S1 m m' -> (forall p, In p S1 -> In p S2) -> chgs S2 m m'.
Proof. intros H1 H2 p Hp. apply H1. intro; apply Hp; auto. Qed.
Lemma chgs_frame S r m m' : chgs S m m' -> (forall p, In p S -> p = r \/ ~ usr p) ->
  forall p, usr p -> p <> r -> same_at p m m'.
Proof. intros H HS p Hu Hp. apply H. intros Hi. destruct (HS p Hi); tauto. Qed.

Lemma chgs_setT r t m : chgs [r] m (setT r t m).
Proof. intros p Hp. cbn in Hp. repeat split; cbn; auto. rewrite upd_neq; auto. Qed.
Lemma chgs_setS r s m : chgs [r] m (setS r s m).
Proof. intros p Hp. cbn in Hp. repeat split; cbn; auto. rewrite upd_neq; auto. Qed.
Lemma chgs_onL r f m : only r (ml m) (f (ml m)) -> chgs [r] m (onL f m).
Proof. intros H p Hp. cbn in Hp. repeat split; cbn; auto. Qed.
Lemma chgs_copy r a m : chgs [r] m (Fr_copy r a m).
Proof. intros p Hp. cbn in Hp. repeat split; cbn; rewrite upd_neq; auto. Qed.
Lemma chgs_refl S m : chgs S m m.
Proof. intros p _. repeat split. Qed.

Lemma usr_neq p i : usr p -> (i < 10)%nat -> p <> T i.
Proof. destruct p; cbn; intros; [discriminate|]. intros [= ->]. lia. Qed.

Lemma elt_same q n p m m' v : same_at p m m' -> elt q n m p v -> elt q n m' p v.
Proof. unfold elt. intros (-> & -> & ->). auto. Qed.

Section FrOps.
Variables (q : Z) (P : zq).
Hypothesis OK : zq_ok q P.
Notation n := (p_n64 P).
Notation R := (Rad n).
Notation at_ := (holds q n).
Notation "m |= p ~> v" := (elt q n m p v) (at level 70, p at level 60).

Local Definition q1 : 1 < q := zk_gt1 _ _ OK.
Local Definition n1 : (1 <= n)%nat := zk_n _ _ OK.
Local Ltac facts := pose proof q1; pose proof n1; pose proof B_gt1.

Lemma mod_lt x : 0 <= x mod q < q.
Proof. apply Z.mod_pos_bound. facts. lia. Qed.

(** Quotient by R: the value stored by a Montgomery product. *)
Lemma quot z A W : 0 <= z < q -> (z * R) mod q = A mod q -> A mod q = (W * R) mod q -> z = W mod q.
Proof.
  intros Hz H1 H2. rewrite H2 in H1. apply (Rad_cancel q P OK) in H1.
  rewrite Z.mod_small in H1 by lia. exact H1.
Qed.

(** Remove inner reductions, then compare as polynomials. *)
Ltac nomod := rewrite ?Zmult_mod_idemp_l, ?Zmult_mod_idemp_r, ?Zplus_mod_idemp_l, ?Zplus_mod_idemp_r,
  ?Zminus_mod_idemp_l, ?Zminus_mod_idemp_r, ?Zmod_mod.

Lemma quot3 z1 z2 A : 0 <= z2 < q -> (z1 * R) mod q = A mod q ->
  (z2 * R) mod q = (z1 * ((R * R * R) mod q)) mod q -> z2 = (A * R) mod q.
Proof.
  intros Hz H1 H2. apply (quot z2 _ _ Hz H2). nomod.
  replace (z1 * (R * R * R)) with ((z1 * R) * (R * R)) by ring.
  rewrite Z.mul_mod, H1, <- Z.mul_mod by (facts; lia). f_equal; ring.
Qed.

Lemma typed_step r m m' : typed n m -> only r (ml m) (ml m') -> limbs_ok n (ml m' r) -> typed n m'.
Proof. intros H1 H2 H3 p. destruct (ptr_dec p r) as [->|]; auto. rewrite H2; auto. Qed.
Lemma typed_holds r m m' v : typed n m -> only r (ml m) (ml m') -> at_ (ml m') r v -> typed n m'.
Proof. intros H1 H2 H3. eapply typed_step; eauto. apply H3. Qed.

(** Reading of the four representations. *)
Lemma elt_range m p v : m |= p ~> v -> 0 <= v < q.
Proof. intros (H & _); auto. Qed.

Lemma elt_long_intro m r v : mt m r = LONG -> at_ (ml m) r v -> m |= r ~> v.
Proof. intros Ht (H1 & H2 & H3). split; [exact H3|]. split; [exact H1|]. right; right; left. auto. Qed.
Lemma elt_mont_intro m r v : mt m r = LONGMONTGOMERY -> 0 <= v < q -> at_ (ml m) r ((v * R) mod q) -> m |= r ~> v.
Proof. intros Ht Hv (H1 & H2 & H3). split; [exact Hv|]. split; [exact H1|]. right; right; right. auto. Qed.
Lemma elt_short_intro m r v : mt m r = SHORT -> is_int32 (ms m r) -> limbs_ok n (ml m r) -> v = ms m r mod q ->
  m |= r ~> v.
Proof. intros Ht Hs Hl ->. split; [apply mod_lt|]. split; [exact Hl|]. left. auto. Qed.

Lemma elt_long m p v : m |= p ~> v -> mt m p = LONG -> at_ (ml m) p v.
Proof.
  intros (H1 & H2 & H) E. rewrite E in H. unfold SHORT, LONG, SHORTMONTGOMERY, LONGMONTGOMERY in H.
  destruct H as [(H & _)|[(H & _)|[(_ & H)|(H & _)]]]; try discriminate. repeat split; auto; apply H2 || apply H1.
Qed.
Lemma elt_mont m p v : m |= p ~> v -> isMont (mt m p) = true -> at_ (ml m) p ((v * R) mod q).
Proof.
  intros (H1 & H2 & H) E. pose proof (mod_lt (v * R)).
  destruct H as [(-> & _)|[(_ & _ & _ & H)|[(-> & _)|(_ & H)]]] in E |- *; try discriminate;
  (split; [exact H2|]; split; [exact H|exact H0]).
Qed.
Lemma elt_short m p v : m |= p ~> v -> isLong (mt m p) = false -> is_int32 (ms m p) /\ v = ms m p mod q.
Proof.
  intros (H1 & H2 & H) E.
  destruct H as [(_ & H)|[(_ & H & H' & _)|[(H & _)|(H & _)]]]; auto; rewrite H in E; discriminate.
Qed.
(** The four types. *)
Lemma elt_type m p v : m |= p ~> v ->
  mt m p = SHORT \/ mt m p = SHORTMONTGOMERY \/ mt m p = LONG \/ mt m p = LONGMONTGOMERY.
Proof. intros (_ & _ & H). tauto. Qed.
Lemma long_cases m p v : m |= p ~> v -> isLong (mt m p) = true ->
  (isMont (mt m p) = true /\ mt m p = LONGMONTGOMERY) \/ (isMont (mt m p) = false /\ mt m p = LONG).
Proof.
  intros H E. destruct (elt_type _ _ _ H) as [E1|[E1|[E1|E1]]]; rewrite E1 in *; try discriminate; auto.
Qed.
Lemma short_cases m p v : m |= p ~> v -> isLong (mt m p) = false ->
  (isMont (mt m p) = true /\ mt m p = SHORTMONTGOMERY) \/ (isMont (mt m p) = false /\ mt m p = SHORT).
Proof.
  intros H E. destruct (elt_type _ _ _ H) as [E1|[E1|[E1|E1]]]; rewrite E1 in *; try discriminate; auto.
Qed.

(** ** 32-bit helpers *)
Lemma to_int32_id s : is_int32 s -> to_int32 s = s.
Proof. unfold is_int32, to_int32. intros. rewrite Z.mod_small; lia. Qed.

Lemma has_add32_overflow_spec v : - 2 ^ 32 <= v < 2 ^ 32 ->
  has_add32_overflow v = false <-> is_int32 v.
Proof.
  intros Hv. unfold has_add32_overflow, is_int32. rewrite Z.shiftr_div_pow2 by lia.
  assert (H : - 2 <= v / 2 ^ 31 <= 1) by (split; [apply Z.div_le_lower_bound|apply Z.lt_succ_r, Z.div_lt_upper_bound]; lia).
  pose proof (Z.div_mod v (2 ^ 31) ltac:(lia)). pose proof (Z.mod_pos_bound v (2 ^ 31) ltac:(lia)).
  set (d := v / 2 ^ 31) in *.
  assert (Hd : d = -2 \/ d = -1 \/ d = 0 \/ d = 1) by lia.
  destruct Hd as [E|[E|[E|E]]]; rewrite E in *; cbn; split; intros; try discriminate; try lia; auto.
Qed.

Lemma has_mul32_overflow_spec v : has_mul32_overflow v = false <-> is_int32 v.
Proof.
  unfold has_mul32_overflow, is_int32. rewrite Z.shiftr_div_pow2 by lia.
  pose proof (Z.div_mod v (2 ^ 31) ltac:(lia)). pose proof (Z.mod_pos_bound v (2 ^ 31) ltac:(lia)).
  set (d := v / 2 ^ 31) in *. cbv zeta. destruct (Z.eqb_spec d 0) as [e|e]; cbn [negb].
  - rewrite e in *. cbn. split; [lia|reflexivity].
  - unfold Z.lnot. destruct (Z.eqb_spec (Z.pred (- d)) 0); cbn [negb]; split; intros; try discriminate; lia.
Qed.

(** ** Conversions *)
Lemma copy_spec r a m v : typed n m -> m |= a ~> v ->
  chgs [r] m (Fr_copy r a m) /\ (Fr_copy r a m) |= r ~> v /\ typed n (Fr_copy r a m) /\
  mt (Fr_copy r a m) r = mt m a.
Proof.
  intros Ht H. split; [apply chgs_copy|]. unfold elt, Fr_copy. cbn [ms mt ml]. rewrite !upd_eq.
  split; [exact H|]. split; [|reflexivity].
  intros p; cbn [ml]. unfold upd. destruct (ptr_eqb p r); apply Ht.
Qed.

Lemma fromMont_val r a m v : at_ (ml m) a ((v * R) mod q) -> 0 <= v < q ->
  at_ (rawFromMontgomery P r a (ml m)) r v /\ only r (ml m) (rawFromMontgomery P r a (ml m)).
Proof.
  intros (H1 & H2 & H3) Hv. destruct (rawFromMontgomery_spec q P OK r a (ml m) H1) as (z & Hz & Hm & Ho).
  split; auto. replace v with z; auto. rewrite H2 in Hm.
  rewrite <- (Z.mod_small v q) by lia. apply (quot z ((v * R) mod q) v); auto; [apply Hz|].
  nomod. reflexivity.
Qed.

Lemma toNormal_spec r a m v : typed n m -> m |= a ~> v ->
  chgs [r] m (Fr_toNormal P r a m) /\ (Fr_toNormal P r a m) |= r ~> v /\ typed n (Fr_toNormal P r a m) /\
  mt (Fr_toNormal P r a m) r <> LONGMONTGOMERY /\
  (isLong (mt m a) = true -> at_ (ml (Fr_toNormal P r a m)) r v) /\
  isLong (mt (Fr_toNormal P r a m) r) = isLong (mt m a).
Proof.
  intros Ht H. unfold Fr_toNormal. destruct (Z.eqb_spec (mt m a) LONGMONTGOMERY) as [E|E].
  - pose proof (elt_range _ _ _ H) as Hv.
    pose proof (elt_mont _ _ _ H ltac:(rewrite E; reflexivity)) as Ha.
    destruct (fromMont_val r a m v Ha Hv) as [H1 H2].
    unfold sq, setT, onL; cbn [ms mt ml].
    split. { intros p Hp; cbn in Hp. repeat split; cbn [ms mt ml]; auto. rewrite upd_neq; auto. }
    split. { apply elt_long_intro; cbn [mt ml]; auto. apply upd_eq. }
    split. { eapply typed_holds; [exact Ht|exact H2|exact H1]. }
    rewrite upd_eq. split; [discriminate|]. split; auto. rewrite E; reflexivity.
  - destruct (copy_spec r a m v Ht H) as (H1 & H2 & H3 & H4).
    split; [auto|]. split; [auto|]. split; [auto|]. split; [congruence|]. split; [|congruence].
    intros Hl. destruct (long_cases _ _ _ H Hl) as [[_ ?]|[_ E']]; [congruence|].
    apply (elt_long _ _ _ H2); congruence.
Qed.

(** Word of a short value fits: |s| <= 2^31 < q. *)
Hypothesis Q32 : 2 ^ 32 < q.

Lemma s2l_val r s m : is_int32 s ->
  at_ (rawCopyS2L P r s m) r (s mod q) /\ only r m (rawCopyS2L P r s m).
Proof. intros Hs. unfold is_int32 in Hs. apply rawCopyS2L_spec; auto; lia. Qed.

Lemma toLongNormal_spec r a m v : typed n m -> m |= a ~> v ->
  chgs [r] m (Fr_toLongNormal P r a m) /\ (Fr_toLongNormal P r a m) |= r ~> v /\
  typed n (Fr_toLongNormal P r a m) /\
  mt (Fr_toLongNormal P r a m) r = LONG /\ at_ (ml (Fr_toLongNormal P r a m)) r v.
Proof.
  intros Ht H. unfold Fr_toLongNormal. destruct (isLong (mt m a)) eqn:El.
  - destruct (long_cases _ _ _ H El) as [[E E']|[E E']]; rewrite E.
    + pose proof (elt_range _ _ _ H) as Hv. pose proof (elt_mont _ _ _ H E) as Ha.
      destruct (fromMont_val r a m v Ha Hv) as [H1 H2].
      unfold sq, setT, onL; cbn [ms mt ml].
      split. { intros p Hp; cbn in Hp. repeat split; cbn [ms mt ml]; auto. rewrite upd_neq; auto. }
      split. { apply elt_long_intro; cbn [mt ml]; auto. apply upd_eq. }
      split. { eapply typed_holds; [exact Ht|exact H2|exact H1]. }
      rewrite upd_eq. auto.
    + destruct (copy_spec r a m v Ht H) as (H1 & H2 & H3 & H4).
      assert (H5 : mt (Fr_copy r a m) r = LONG) by congruence.
      split; [auto|]. split; [auto|]. split; [auto|]. split; [auto|]. apply (elt_long _ _ _ H2 H5).
  - destruct (elt_short _ _ _ H El) as [Hs Hv].
    destruct (s2l_val r (ms m a) (ml m) Hs) as [H1 H2]. rewrite <- Hv in H1.
    unfold sq, setT, setS, onL; cbn [ms mt ml].
    split. { intros p Hp; cbn in Hp. repeat split; cbn [ms mt ml]; auto; rewrite upd_neq; auto. }
    split. { apply elt_long_intro; cbn [mt ml]; auto. apply upd_eq. }
    split. { eapply typed_holds; [exact Ht|exact H2|exact H1]. }
    rewrite upd_eq. auto.
Qed.

(** a signed short times a long *)
Lemma to_u64_id w : 0 <= w < B -> to_u64 w = w.
Proof. intros; unfold to_u64; apply Z.mod_small; auto. Qed.

Lemma B32 : 2 ^ 32 < B. Proof. reflexivity. Qed.

(** toMontgomery: the long form is v*R whatever r contained; the short field
    is only right when it is copied or when r is a. *)
Lemma toMontgomery_spec r a m v : typed n m -> m |= a ~> v ->
  chgs [r] m (Fr_toMontgomery P r a m) /\ typed n (Fr_toMontgomery P r a m) /\
  isMont (mt (Fr_toMontgomery P r a m) r) = true /\
  isLong (mt (Fr_toMontgomery P r a m) r) = isLong (mt m a) /\
  at_ (ml (Fr_toMontgomery P r a m)) r ((v * R) mod q) /\
  ((r = a \/ isLong (mt m a) = true \/ isMont (mt m a) = true \/ ms m r = ms m a) ->
   (Fr_toMontgomery P r a m) |= r ~> v).
Proof.
  intros Ht H. pose proof (elt_range _ _ _ H) as Hv. unfold Fr_toMontgomery.
  destruct (isMont (mt m a)) eqn:Em.
  - destruct (copy_spec r a m v Ht H) as (H1 & H2 & H3 & H4).
    split; [auto|]. split; [auto|]. rewrite H4. split; [auto|]. split; [auto|]. split; [|auto].
    apply elt_mont; auto. congruence.
  - destruct (isLong (mt m a)) eqn:El.
    + destruct (long_cases _ _ _ H El) as [[E E']|[E E']]; [congruence|].
      pose proof (elt_long _ _ _ H E') as (Ha1 & Ha2 & _).
      destruct (rawToMontgomery_spec q P OK r a (ml m) Ha1) as [H1 H2]. rewrite Ha2 in H1.
      unfold rawToMontgomery in *.
      unfold sq, setT, setS, onL; cbn [ms mt ml].
      split. { intros p Hp; cbn in Hp. repeat split; cbn [ms mt ml]; auto; rewrite upd_neq; auto. }
      split. { eapply typed_holds; [exact Ht|exact H2|exact H1]. }
      rewrite upd_eq. split; [reflexivity|]. split; [reflexivity|]. split; [auto|].
      intros _. apply elt_mont_intro; cbn [mt ml]; auto. apply upd_eq.
    + destruct (elt_short _ _ _ H El) as [Hs Ev]. unfold is_int32 in Hs.
      destruct (short_cases _ _ _ H El) as [[E E']|[E E']]; [congruence|].
      destruct (R2_ok q P OK) as [HR2 ER2].
      rewrite <- (Rad_R P) in ER2.
      assert (HR2q : eval (p_R2 P) < q) by (rewrite ER2; apply mod_lt).
      pose proof B32.
      set (m' := if ms m a <? 0 then _ else _).
      assert (Hkey : at_ (ml m') r ((v * R) mod q) /\ only r (ml m) (ml m') /\ mt m' = upd (mt m) r SHORTMONTGOMERY /\ ms m' = ms m).
      { unfold m'. destruct (Z.ltb_spec (ms m a) 0).
        - rewrite to_u64_id by lia.
          destruct (rawMMul1_c_spec q P OK r (p_R2 P) (- ms m a) (ml m) HR2 HR2q ltac:(lia)) as (z & Hz & Hm & Ho).
          destruct (rawNeg_spec q P OK r r _ z Hz) as [H3 H4].
          unfold sq, setT, onL; cbn [ms mt ml]. split; [|split; [|split; reflexivity]].
          + replace ((v * R) mod q) with ((- z) mod q); auto.
            assert (Hz' : z = ((- ms m a) * R) mod q).
            { apply (quot z _ _ ltac:(apply Hz) Hm). rewrite ER2. modring. }
            rewrite Hz', Ev. rewrite <- Z.sub_0_l. nomod. f_equal. ring.
          + eapply only_trans; eauto.
        - rewrite to_u64_id by lia.
          destruct (rawMMul1_c_spec q P OK r (p_R2 P) (ms m a) (ml m) HR2 HR2q ltac:(lia)) as (z & Hz & Hm & Ho).
          unfold sq, setT, onL; cbn [ms mt ml]. split; [|split; [|split; reflexivity]]; auto.
          replace ((v * R) mod q) with z; auto. rewrite Ev. nomod.
          apply (quot z _ _ ltac:(apply Hz) Hm). rewrite ER2. modring. }
      destruct Hkey as (K1 & K2 & K3 & K4).
      split. { intros p Hp; cbn in Hp. unfold same_at. rewrite K3, K4. repeat split; auto. rewrite upd_neq; auto. }
      split. { eapply typed_holds; [exact Ht|exact K2|exact K1]. }
      rewrite K3, upd_eq. split; [reflexivity|]. split; [reflexivity|]. split; [auto|].
      intros Hor. unfold elt. rewrite K3, K4, upd_eq.
      assert (ms m r = ms m a) as -> by (destruct Hor as [->|[|[|]]]; auto; congruence).
      split; [auto|]. split; [apply K1|]. right; left. split; [auto|]. split; [auto|]. split; [auto|]. apply K1.
Qed.

(** ** Addition and subtraction share their case analysis *)
Section Linear.
Variable rop : ptr -> ptr -> ptr -> rmem -> rmem.
Variable op : Z -> Z -> Z.
Hypothesis rop_spec : forall r a b m x y, at_ m a x -> at_ m b y ->
  at_ (rop r a b m) r (op x y mod q) /\ only r m (rop r a b m).
Hypothesis op_mont : forall x y, op ((x * R) mod q) ((y * R) mod q) mod q = ((op x y mod q) * R) mod q.

Lemma lin_long r a b m x y : typed n m ->
  at_ (ml m) a x -> at_ (ml m) b y ->
  yields q n r m ((setT r LONG >>> onL (rop r a b)) m) (op x y mod q).
Proof.
  intros Ht Ha Hb. destruct (rop_spec r a b (ml m) x y Ha Hb) as [H1 H2].
  unfold sq. split; [|split].
  - eapply typed_holds; [exact Ht|exact H2|exact H1].
  - apply elt_long_intro; cbn [mt ml setT onL]; [apply upd_eq|auto].
  - eapply chgs_frame; [eapply chgs_trans; [apply chgs_setT|apply chgs_onL; exact H2]|].
    cbn; intuition auto.
Qed.

Lemma lin_mont r a b m x y : typed n m ->
  at_ (ml m) a ((x * R) mod q) -> at_ (ml m) b ((y * R) mod q) ->
  yields q n r m ((setT r LONGMONTGOMERY >>> onL (rop r a b)) m) (op x y mod q).
Proof.
  intros Ht Ha Hb. destruct (rop_spec r a b (ml m) _ _ Ha Hb) as [H1 H2].
  rewrite op_mont in H1.
  unfold sq. split; [|split].
  - eapply typed_holds; [exact Ht|exact H2|exact H1].
  - apply elt_mont_intro; cbn [mt ml setT onL]; [apply upd_eq|apply mod_lt|auto].
  - eapply chgs_frame; [eapply chgs_trans; [apply chgs_setT|apply chgs_onL; exact H2]|].
    cbn; intuition auto.
Qed.

(** first operand converted into T 0 *)
Lemma lin_convA r a b m x y : typed n m -> usr r -> usr b -> r <> a ->
  m |= a ~> x -> at_ (ml m) b ((y * R) mod q) ->
  yields q n r m ((setT r LONGMONTGOMERY >>> Fr_toMontgomery P (T 0) a >>> onL (rop r (T 0) b)) m) (op x y mod q).
Proof.
  intros Ht Hur Hub Hra Ha Hb. unfold sq.
  set (m1 := setT r LONGMONTGOMERY m).
  assert (Ht1 : typed n m1) by exact Ht.
  assert (Ha1 : m1 |= a ~> x).
  { eapply elt_same; [|exact Ha]. apply (chgs_setT r). cbn. intuition congruence. }
  destruct (toMontgomery_spec (T 0) a m1 x Ht1 Ha1) as (C & Ht2 & _ & _ & HT & _).
  set (m2 := Fr_toMontgomery P (T 0) a m1) in *.
  pose proof (usr_neq r 0 Hur ltac:(lia)). pose proof (usr_neq b 0 Hub ltac:(lia)).
  assert (Hb2 : at_ (ml m2) b ((y * R) mod q)).
  { destruct (C b) as (_ & _ & E); [cbn; intuition congruence|]. unfold holds. rewrite E. exact Hb. }
  destruct (rop_spec r (T 0) b (ml m2) _ _ HT Hb2) as [H1 H2].
  rewrite op_mont in H1. split; [|split].
  - eapply typed_holds; [exact Ht2|exact H2|exact H1].
  - apply elt_mont_intro; cbn [mt ml onL]; [|apply mod_lt|auto].
    destruct (C r) as (_ & -> & _); [cbn; intuition congruence|]. apply upd_eq.
  - eapply chgs_frame; [eapply chgs_trans; [apply (chgs_setT r)|eapply chgs_trans; [exact C|apply chgs_onL; exact H2]]|].
    cbn. intros p. intuition auto; subst; right; cbn; lia.
Qed.

(** second operand converted into T 1 *)
Lemma lin_convB r a b m x y : typed n m -> usr r -> usr a -> r <> b ->
  at_ (ml m) a ((x * R) mod q) -> m |= b ~> y ->
  yields q n r m ((setT r LONGMONTGOMERY >>> Fr_toMontgomery P (T 1) b >>> onL (rop r a (T 1))) m) (op x y mod q).
Proof.
  intros Ht Hur Hua Hrb Ha Hb. unfold sq.
  set (m1 := setT r LONGMONTGOMERY m).
  assert (Ht1 : typed n m1) by exact Ht.
  assert (Hb1 : m1 |= b ~> y).
  { eapply elt_same; [|exact Hb]. apply (chgs_setT r). cbn. intuition congruence. }
  destruct (toMontgomery_spec (T 1) b m1 y Ht1 Hb1) as (C & Ht2 & _ & _ & HT & _).
  set (m2 := Fr_toMontgomery P (T 1) b m1) in *.
  pose proof (usr_neq r 1 Hur ltac:(lia)). pose proof (usr_neq a 1 Hua ltac:(lia)).
  assert (Ha2 : at_ (ml m2) a ((x * R) mod q)).
  { destruct (C a) as (_ & _ & E); [cbn; intuition congruence|]. unfold holds. rewrite E. exact Ha. }
  destruct (rop_spec r a (T 1) (ml m2) _ _ Ha2 HT) as [H1 H2].
  rewrite op_mont in H1. split; [|split].
  - eapply typed_holds; [exact Ht2|exact H2|exact H1].
  - apply elt_mont_intro; cbn [mt ml onL]; [|apply mod_lt|auto].
    destruct (C r) as (_ & -> & _); [cbn; intuition congruence|]. apply upd_eq.
  - eapply chgs_frame; [eapply chgs_trans; [apply (chgs_setT r)|eapply chgs_trans; [exact C|apply chgs_onL; exact H2]]|].
    cbn. intros p. intuition auto; subst; right; cbn; lia.
Qed.
End Linear.

(** store of a word operation in long form *)
Lemma word_long r m f v : typed n m -> at_ (f (ml m)) r v -> only r (ml m) (f (ml m)) ->
  yields q n r m ((setT r LONG >>> onL f) m) v.
Proof.
  intros Ht H1 H2. unfold sq. split; [|split].
  - eapply typed_holds; [exact Ht|exact H2|exact H1].
  - apply elt_long_intro; cbn [mt ml setT onL]; [apply upd_eq|auto].
  - eapply chgs_frame; [eapply chgs_trans; [apply chgs_setT|apply chgs_onL; exact H2]|].
    cbn; intuition auto.
Qed.

Lemma store_s_spec r v m : typed n m -> - 2 ^ 32 <= v < 2 ^ 32 ->
  yields q n r m (store_s P r v m) (v mod q).
Proof.
  intros Ht Hv. unfold store_s. destruct (has_add32_overflow v) eqn:E.
  - destruct (rawCopyS2L_spec q P OK r v (ml m)) as [H1 H2]; try lia.
    unfold sq. split; [|split].
    + eapply typed_holds; [exact Ht|exact H2|exact H1].
    + apply elt_long_intro; cbn [mt ml setT setS onL]; [apply upd_eq|auto].
    + intros p Hu Hp. repeat split; cbn [ms mt ml setT setS onL]; rewrite ?upd_neq by auto; auto.
  - apply has_add32_overflow_spec in E; auto. rewrite to_int32_id by auto.
    unfold sq. split; [exact Ht|]. split.
    + apply elt_short_intro; cbn [ms mt ml setT setS]; rewrite ?upd_eq; auto.
    + intros p Hu Hp. repeat split; cbn [ms mt ml setT setS onL]; rewrite ?upd_neq by auto; auto.
Qed.

Lemma add_mont x y : ((x * R) mod q + (y * R) mod q) mod q = (((x + y) mod q) * R) mod q.
Proof. modring. Qed.
Lemma sub_mont x y : ((x * R) mod q - (y * R) mod q) mod q = (((x - y) mod q) * R) mod q.
Proof. modring. Qed.

Ltac tsplit H E E' := match type of H with
  | elt _ _ ?m ?p _ =>
    destruct (isLong (mt m p)) eqn:E;
    [destruct (long_cases _ _ _ H E) as [[E' ?]|[E' ?]]
    |destruct (short_cases _ _ _ H E) as [[E' ?]|[E' ?]]]; rewrite ?E'
  end.


Lemma add_ls r a b m x y : typed n m -> at_ (ml m) a x -> is_int32 (ms m b) -> y = ms m b mod q ->
  yields q n r m (add_l1ns2 P r a b m) ((x + y) mod q) /\
  yields q n r m (add_s1l2n P r b a m) ((y + x) mod q).
Proof.
  intros Ht HL Hs Ev. unfold is_int32 in Hs. unfold add_l1ns2, add_s1l2n. pose proof B32.
  replace ((x + y) mod q) with ((x + ms m b) mod q) by (rewrite Ev; modring).
  replace ((y + x) mod q) with ((x + ms m b) mod q) by (rewrite Ev; modring).
  destruct (Z.leb_spec 0 (ms m b)); rewrite to_u64_id by lia.
  - destruct (rawAddLS_spec q P OK r a (ms m b) (ml m) x HL) as [H5 H6]; try lia.
    split; apply word_long; auto.
  - destruct (rawSubLS_spec q P OK r a (- ms m b) (ml m) x HL) as [H5 H6]; try lia.
    replace (x - - ms m b) with (x + ms m b) in H5 by ring. split; apply word_long; auto.
Qed.

Lemma sub_ls r a b m x y : typed n m -> at_ (ml m) a x -> is_int32 (ms m b) -> y = ms m b mod q ->
  yields q n r m (sub_l1ns2 P r a b m) ((x - y) mod q).
Proof.
  intros Ht HL Hs Ev. unfold is_int32 in Hs. unfold sub_l1ns2. pose proof B32.
  replace ((x - y) mod q) with ((x - ms m b) mod q) by (rewrite Ev; modring).
  destruct (Z.ltb_spec (ms m b) 0); rewrite to_u64_id by lia.
  - destruct (rawAddLS_spec q P OK r a (- ms m b) (ml m) x HL) as [H5 H6]; try lia.
    replace (x + - ms m b) with (x - ms m b) in H5 by ring. apply word_long; auto.
  - destruct (rawSubLS_spec q P OK r a (ms m b) (ml m) x HL) as [H5 H6]; try lia. apply word_long; auto.
Qed.

Lemma sub_sl r a b m x y : typed n m -> at_ (ml m) b y -> is_int32 (ms m a) -> x = ms m a mod q ->
  (r = b -> 0 <= ms m a) ->
  yields q n r m (sub_s1l2n P r a b m) ((x - y) mod q).
Proof.
  intros Ht HL Hs Ev Hal. unfold is_int32 in Hs. unfold sub_s1l2n. pose proof B32.
  replace ((x - y) mod q) with ((ms m a - y) mod q) by (rewrite Ev; modring).
  destruct (Z.leb_spec 0 (ms m a)); rewrite to_u64_id by lia.
  - destruct (rawSubSL_spec q P OK r (ms m a) b (ml m) y) as [H5 H6]; auto; try lia. apply word_long; auto.
  - assert (r <> b) by (intro E; specialize (Hal E); lia). pose proof HL as (_ & _ & Hy).
    destruct (rawNegLS_spec q P OK r b (- ms m a) (ml m) y) as [H5 H6]; auto; try lia.
    replace (- (y + - ms m a)) with (ms m a - y) in H5 by ring. apply word_long; auto.
Qed.

Lemma add_ls1 r a b m x y : typed n m -> at_ (ml m) a x -> is_int32 (ms m b) -> y = ms m b mod q ->
  yields q n r m (add_l1ns2 P r a b m) ((x + y) mod q).
Proof. intros. apply (add_ls r a b m x y); auto. Qed.
Lemma add_ls2 r a b m x y : typed n m -> at_ (ml m) a x -> is_int32 (ms m b) -> y = ms m b mod q ->
  yields q n r m (add_s1l2n P r b a m) ((y + x) mod q).
Proof. intros. apply (add_ls r a b m x y); auto. Qed.

Theorem Fr_add_spec r a b m x y : typed n m -> usr r -> usr a -> usr b -> add_alias_ok r a b m ->
  m |= a ~> x -> m |= b ~> y -> yields q n r m (Fr_add P r a b m) ((x + y) mod q).
Proof.
  intros Ht Hur Hua Hub [Hra Hrb] Ha Hb. unfold Fr_add. pose proof B32.
  tsplit Ha Ea Ea'; tsplit Hb Eb Eb'.
  14: apply add_ls2; auto using elt_long; apply (elt_short _ _ _ Ha Ea).
  13: apply (lin_convA (rawAdd P) Z.add (rawAdd_spec q P OK) add_mont); auto using elt_mont; intro; apply Hra; auto.
  10: apply add_ls2; auto using elt_long; apply (elt_short _ _ _ Ha Ea).
  9: apply (lin_mont (rawAdd P) Z.add (rawAdd_spec q P OK) add_mont); auto using elt_mont.
  8: apply add_ls1; auto using elt_long; apply (elt_short _ _ _ Hb Eb).
  7: apply add_ls1; auto using elt_long; apply (elt_short _ _ _ Hb Eb).
  6: apply (lin_long (rawAdd P) Z.add (rawAdd_spec q P OK)); auto using elt_long.
  5: apply (lin_convA (rawAdd P) Z.add (rawAdd_spec q P OK) add_mont); auto using elt_mont; intro; apply Hra; auto.
  4: apply (lin_convB (rawAdd P) Z.add (rawAdd_spec q P OK) add_mont); auto using elt_mont; intro; apply Hrb; auto.
  3: apply (lin_mont (rawAdd P) Z.add (rawAdd_spec q P OK) add_mont); auto using elt_mont.
  2: apply (lin_convB (rawAdd P) Z.add (rawAdd_spec q P OK) add_mont); auto using elt_mont; intro; apply Hrb; auto.
  1: apply (lin_mont (rawAdd P) Z.add (rawAdd_spec q P OK) add_mont); auto using elt_mont.
  all: destruct (elt_short _ _ _ Ha Ea) as [Hs1 E1]; destruct (elt_short _ _ _ Hb Eb) as [Hs2 E2]; unfold is_int32 in *.
  all: replace ((x + y) mod q) with ((ms m a + ms m b) mod q) by (rewrite E1, E2; modring).
  all: apply store_s_spec; auto; lia.
Qed.

Theorem Fr_sub_spec r a b m x y : typed n m -> usr r -> usr a -> usr b -> sub_alias_ok r a b m ->
  m |= a ~> x -> m |= b ~> y -> yields q n r m (Fr_sub P r a b m) ((x - y) mod q).
Proof.
  intros Ht Hur Hua Hub [[Hra Hrb] Hn] Ha Hb. unfold Fr_sub. pose proof B32.
  tsplit Ha Ea Ea'; tsplit Hb Eb Eb'.
  14: apply sub_sl; auto using elt_long; apply (elt_short _ _ _ Ha Ea).
  13: apply (lin_convA (rawSub P) Z.sub (rawSub_spec q P OK) sub_mont); auto using elt_mont; intro; apply Hra; auto.
  10: apply sub_sl; auto using elt_long; apply (elt_short _ _ _ Ha Ea).
  9: apply (lin_mont (rawSub P) Z.sub (rawSub_spec q P OK) sub_mont); auto using elt_mont.
  8: apply sub_ls; auto using elt_long; apply (elt_short _ _ _ Hb Eb).
  7: apply sub_ls; auto using elt_long; apply (elt_short _ _ _ Hb Eb).
  6: apply (lin_long (rawSub P) Z.sub (rawSub_spec q P OK)); auto using elt_long.
  5: apply (lin_convA (rawSub P) Z.sub (rawSub_spec q P OK) sub_mont); auto using elt_mont; intro; apply Hra; auto.
  4: apply (lin_convB (rawSub P) Z.sub (rawSub_spec q P OK) sub_mont); auto using elt_mont; intro; apply Hrb; auto.
  3: apply (lin_mont (rawSub P) Z.sub (rawSub_spec q P OK) sub_mont); auto using elt_mont.
  2: apply (lin_convB (rawSub P) Z.sub (rawSub_spec q P OK) sub_mont); auto using elt_mont; intro; apply Hrb; auto.
  1: apply (lin_mont (rawSub P) Z.sub (rawSub_spec q P OK) sub_mont); auto using elt_mont.
  all: destruct (elt_short _ _ _ Ha Ea) as [Hs1 E1]; destruct (elt_short _ _ _ Hb Eb) as [Hs2 E2]; unfold is_int32 in *.
  all: replace ((x - y) mod q) with ((ms m a - ms m b) mod q) by (rewrite E1, E2; modring).
  all: apply store_s_spec; auto; lia.
Qed.

(** ** Negation *)
Theorem Fr_neg_spec r a m x : typed n m -> m |= a ~> x ->
  yields q n r m (Fr_neg P r a m) ((- x) mod q).
Proof.
  intros Ht Ha. unfold Fr_neg. tsplit Ha Ea Ea'.
  - pose proof (elt_mont _ _ _ Ha Ea') as HL.
    destruct (rawNeg_spec q P OK r a (ml m) _ HL) as [H1 H2].
    replace ((- ((x * R) mod q)) mod q) with ((((- x) mod q) * R) mod q) in H1
      by (rewrite <- (Z.sub_0_l ((x * R) mod q)); modring).
    rewrite H. unfold sq. split; [|split].
    + eapply typed_holds; [exact Ht|exact H2|exact H1].
    + apply elt_mont_intro; cbn [mt ml setT setS onL]; [apply upd_eq|apply mod_lt|auto].
    + intros p Hu Hp. repeat split; cbn [ms mt ml setT setS onL]; rewrite ?upd_neq by auto; auto.
  - pose proof (elt_long _ _ _ Ha H) as HL.
    destruct (rawNeg_spec q P OK r a (ml m) _ HL) as [H1 H2].
    rewrite H. unfold sq. split; [|split].
    + eapply typed_holds; [exact Ht|exact H2|exact H1].
    + apply elt_long_intro; cbn [mt ml setT setS onL]; [apply upd_eq|auto].
    + intros p Hu Hp. repeat split; cbn [ms mt ml setT setS onL]; rewrite ?upd_neq by auto; auto.
  - destruct (elt_short _ _ _ Ha Ea) as [Hs1 E1]. unfold is_int32 in *.
    replace ((- x) mod q) with ((- ms m a) mod q) by (rewrite E1, <- (Z.sub_0_l (ms m a mod q)); modring).
    apply store_s_spec; auto; lia.
  - destruct (elt_short _ _ _ Ha Ea) as [Hs1 E1]. unfold is_int32 in *.
    replace ((- x) mod q) with ((- ms m a) mod q) by (rewrite E1, <- (Z.sub_0_l (ms m a mod q)); modring).
    apply store_s_spec; auto; lia.
Qed.

(** ** Multiplication *)
Lemma fin_long r m m' v : typed n m -> at_ (ml m') r v -> only r (ml m) (ml m') ->
  mt m' r = LONG -> (forall p, p <> r -> ms m' p = ms m p /\ mt m' p = mt m p) ->
  yields q n r m m' v.
Proof.
  intros Ht H1 H2 H3 H4. split; [|split].
  - eapply typed_holds; eauto.
  - apply elt_long_intro; auto.
  - intros p Hu Hp. destruct (H4 p Hp). repeat split; auto.
Qed.
Lemma fin_mont r m m' v : typed n m -> 0 <= v < q -> at_ (ml m') r ((v * R) mod q) -> only r (ml m) (ml m') ->
  mt m' r = LONGMONTGOMERY -> (forall p, p <> r -> ms m' p = ms m p /\ mt m' p = mt m p) ->
  yields q n r m m' v.
Proof.
  intros Ht Hv H1 H2 H3 H4. split; [|split].
  - eapply typed_holds; eauto.
  - apply elt_mont_intro; auto.
  - intros p Hu Hp. destruct (H4 p Hp). repeat split; auto.
Qed.

Lemma setT_frame r t m : forall p, p <> r -> ms m p = ms m p /\ upd (mt m) r t p = mt m p.
Proof. intros p Hp. rewrite upd_neq; auto. Qed.

Lemma at_ok m p v : at_ m p v -> limbs_ok n (m p). Proof. intros H; apply H. Qed.
Lemma at_ev m p v : at_ m p v -> eval (m p) = v. Proof. intros H; apply H. Qed.

(** mixed product: one operand in Montgomery form *)
Lemma mul_mixed r a b m X Y v : typed n m -> at_ (ml m) a X -> at_ (ml m) b Y ->
  (X * Y) mod q = (v * R) mod q -> 0 <= v < q ->
  yields q n r m ((setT r LONG >>> onL (rawMMul P r a b)) m) v.
Proof.
  intros Ht Ha Hb HXY Hv.
  destruct (rawMMul_spec q P OK r a b (ml m) _ (at_ok _ _ _ Ha) Hb) as (z & Hz & Hm & Ho).
  rewrite (at_ev _ _ _ Ha) in Hm.
  assert (z = v) as ->.
  { rewrite <- (Z.mod_small v q) by lia. apply (quot z _ _ ltac:(apply Hz) Hm HXY). }
  unfold sq. apply fin_long; cbn [ms mt ml setT onL]; auto; [apply upd_eq|apply setT_frame].
Qed.

Lemma mul_mm r a b m x y : typed n m -> at_ (ml m) a ((x * R) mod q) -> at_ (ml m) b ((y * R) mod q) ->
  yields q n r m ((setT r LONGMONTGOMERY >>> onL (rawMMul P r a b)) m) ((x * y) mod q).
Proof.
  intros Ht Ha Hb.
  destruct (rawMMul_spec q P OK r a b (ml m) _ (at_ok _ _ _ Ha) Hb) as (z & Hz & Hm & Ho).
  rewrite (at_ev _ _ _ Ha) in Hm.
  assert (z = (((x * y) mod q) * R) mod q) as ->.
  { rewrite Zmult_mod_idemp_l. apply (quot z _ _ ltac:(apply Hz) Hm). modring. }
  unfold sq. apply fin_mont; cbn [ms mt ml setT onL]; auto; [apply mod_lt|apply upd_eq|apply setT_frame].
Qed.

Lemma R3_val : limbs_ok n (p_R3 P) /\ eval (p_R3 P) = (R * R * R) mod q.
Proof. destruct (R3_ok q P OK) as [H1 H2]. rewrite <- (Rad_R P) in H2. auto. Qed.

Lemma mul_nn r a b m x y : typed n m -> at_ (ml m) a x -> at_ (ml m) b y ->
  yields q n r m (mul_l1nl2n P r a b m) ((x * y) mod q).
Proof.
  intros Ht Ha Hb. unfold mul_l1nl2n.
  destruct (rawMMul_spec q P OK r a b (ml m) _ (at_ok _ _ _ Ha) Hb) as (z & Hz & Hm & Ho).
  rewrite (at_ev _ _ _ Ha) in Hm.
  destruct R3_val as [H3 E3].
  destruct (rawMMul_c_spec q P OK r r (p_R3 P) _ (at_ok _ _ _ Hz) H3) as (z2 & Hz2 & Hm2 & Ho2).
  { rewrite E3. apply mod_lt. }
  rewrite (at_ev _ _ _ Hz), E3 in Hm2.
  assert (z2 = (((x * y) mod q) * R) mod q) as ->.
  { rewrite Zmult_mod_idemp_l. apply (quot3 z z2); auto. apply Hz2. }
  unfold sq. apply fin_mont; cbn [ms mt ml setT onL]; auto;
    [apply mod_lt|eapply only_trans; eauto|apply upd_eq|apply setT_frame].
Qed.

Lemma mmul1_signed_spec r l s m X : at_ (ml m) l X -> is_int32 (ms m s) ->
  exists z, at_ (ml (mmul1_signed P r l s m)) r z /\ (z * R) mod q = (X * ms m s) mod q /\
  only r (ml m) (ml (mmul1_signed P r l s m)) /\
  ms (mmul1_signed P r l s m) = ms m /\ mt (mmul1_signed P r l s m) = mt m.
Proof.
  intros HL Hs. unfold is_int32 in Hs. unfold mmul1_signed. pose proof B32.
  destruct (Z.ltb_spec (ms m s) 0); rewrite to_u64_id by lia.
  - destruct (rawMMul1_spec q P OK r l (- ms m s) (ml m) X HL ltac:(lia)) as (z & Hz & Hm & Ho).
    destruct (rawNeg_spec q P OK r r _ z Hz) as [H3 H4].
    exists ((- z) mod q). unfold sq, onL; cbn [ms mt ml]. repeat split; auto; try apply H3.
    + rewrite Zmult_mod_idemp_l.
      replace (- z * R) with (0 - z * R) by ring.
      rewrite <- Zminus_mod_idemp_r, Hm. modring.
    + eapply only_trans; eauto.
  - destruct (rawMMul1_spec q P OK r l (ms m s) (ml m) X HL ltac:(lia)) as (z & Hz & Hm & Ho).
    exists z. unfold sq, onL; cbn [ms mt ml]. repeat split; auto; apply Hz.
Qed.

(** long normal times short normal *)
Lemma mul_ns r l s m x y : typed n m -> at_ (ml m) l x -> is_int32 (ms m s) -> y = ms m s mod q ->
  yields q n r m ((setT r LONGMONTGOMERY >>> mmul1_signed P r l s >>> onL (rawMMul_c P r r (p_R3 P))) m)
    ((x * y) mod q).
Proof.
  intros Ht HL Hs Ev. unfold sq. set (m1 := setT r LONGMONTGOMERY m).
  destruct (mmul1_signed_spec r l s m1 x HL Hs) as (z & Hz & Hm & Ho & E1 & E2).
  set (m2 := mmul1_signed P r l s m1) in *. change (ms m1 s) with (ms m s) in Hm.
  destruct R3_val as [H3 E3].
  destruct (rawMMul_c_spec q P OK r r (p_R3 P) _ (at_ok _ _ _ Hz) H3) as (z2 & Hz2 & Hm2 & Ho2).
  { rewrite E3. apply mod_lt. }
  rewrite (at_ev _ _ _ Hz), E3 in Hm2.
  assert (z2 = (((x * y) mod q) * R) mod q) as ->.
  { rewrite (quot3 z z2 _ ltac:(apply Hz2) Hm Hm2), Ev. modring. }
  apply fin_mont; cbn [ms mt ml onL]; auto; rewrite ?E1, ?E2.
  - apply mod_lt.
  - eapply only_trans; eauto.
  - apply upd_eq.
  - apply (setT_frame r _ m).
Qed.

(** long Montgomery times short normal *)
Lemma mul_ms_ r l s m x y : typed n m -> at_ (ml m) l ((x * R) mod q) -> is_int32 (ms m s) -> y = ms m s mod q ->
  yields q n r m ((setT r LONG >>> mmul1_signed P r l s) m) ((x * y) mod q).
Proof.
  intros Ht HL Hs Ev. unfold sq. set (m1 := setT r LONG m).
  destruct (mmul1_signed_spec r l s m1 _ HL Hs) as (z & Hz & Hm & Ho & E1 & E2).
  set (m2 := mmul1_signed P r l s m1) in *. change (ms m1 s) with (ms m s) in Hm.
  assert (z = (x * y) mod q) as ->.
  { apply (quot z _ _ ltac:(apply Hz) Hm). rewrite Ev. modring. }
  apply fin_long; auto; rewrite ?E1, ?E2.
  - apply upd_eq.
  - apply (setT_frame r _ m).
Qed.

Lemma mul_ss r a b m x y : 2 ^ 62 < q -> typed n m -> is_int32 (ms m a) -> is_int32 (ms m b) ->
  x = ms m a mod q -> y = ms m b mod q ->
  yields q n r m (mul_s1s2 P r a b m) ((x * y) mod q).
Proof.
  intros Q62 Ht Ha Hb Ex Ey. unfold is_int32 in *.
  replace ((x * y) mod q) with ((ms m a * ms m b) mod q) by (rewrite Ex, Ey; modring).
  assert (Hab : Z.abs (ms m a * ms m b) <= 2 ^ 31 * 2 ^ 31)
    by (rewrite Z.abs_mul; apply Z.mul_le_mono_nonneg; lia).
  change (2 ^ 31 * 2 ^ 31) with (2 ^ 62) in Hab.
  destruct (rawCopyS2L_spec q P OK r (ms m a * ms m b) (ml m)) as [H1 H2]; [lia|lia|].
  unfold mul_s1s2. destruct (has_mul32_overflow _); unfold sq;
  (apply fin_long; cbn [ms mt ml setT setS onL]; auto; [apply upd_eq|];
   intros p Hp; rewrite !upd_neq by auto; auto).
Qed.

Theorem Fr_mul_spec r a b m x y : 2 ^ 62 < q -> typed n m -> m |= a ~> x -> m |= b ~> y ->
  yields q n r m (Fr_mul P r a b m) ((x * y) mod q).
Proof.
  intros Q62 Ht Ha Hb. unfold Fr_mul.
  tsplit Ha Ea Ea'; tsplit Hb Eb Eb'.
  all: try (destruct (elt_short _ _ _ Ha Ea) as [Hs1 E1]). 
  all: try (destruct (elt_short _ _ _ Hb Eb) as [Hs2 E2]).
  - apply mul_mm; auto using elt_mont.
  - unfold mul_l1ml2n, mul_s1ml2n; eapply mul_mixed; [auto|apply elt_mont|apply elt_long| |apply mod_lt]; eauto; modring.
  - apply mul_mm; auto using elt_mont.
  - apply mul_ms_; auto using elt_mont.
  - unfold mul_l1nl2m, mul_l1ns2m; eapply mul_mixed; [auto|apply elt_long|apply elt_mont| |apply mod_lt]; eauto; modring.
  - apply mul_nn; auto using elt_long.
  - unfold mul_l1nl2m, mul_l1ns2m; eapply mul_mixed; [auto|apply elt_long|apply elt_mont| |apply mod_lt]; eauto; modring.
  - apply mul_ns; auto using elt_long.
  - apply mul_mm; auto using elt_mont.
  - unfold mul_l1ml2n, mul_s1ml2n; eapply mul_mixed; [auto|apply elt_mont|apply elt_long| |apply mod_lt]; eauto; modring.
  - apply mul_ss; auto.
  - apply mul_ss; auto.
  - rewrite (Z.mul_comm x y); apply mul_ms_; auto using elt_mont.
  - rewrite (Z.mul_comm x y); apply mul_ns; auto using elt_long.
  - apply mul_ss; auto.
  - apply mul_ss; auto.
Qed.

Theorem Fr_square_spec r a m x : 2 ^ 62 < q -> typed n m -> m |= a ~> x ->
  yields q n r m (Fr_square P r a m) ((x * x) mod q).
Proof.
  intros Q62 Ht Ha. unfold Fr_square.
  tsplit Ha Ea Ea'.
  - rewrite H. change (LONGMONTGOMERY =? LONGMONTGOMERY) with true. cbv iota.
    unfold rawMSquare. apply mul_mm; auto using elt_mont.
  - rewrite H. change (LONG =? LONGMONTGOMERY) with false. cbv iota.
    unfold rawMSquare. apply mul_nn; auto using elt_long.
  - destruct (elt_short _ _ _ Ha Ea) as [Hs1 E1]. apply mul_ss; auto.
  - destruct (elt_short _ _ _ Ha Ea) as [Hs1 E1]. apply mul_ss; auto.
Qed.
End FrOps.
