(** Proofs about the tagged field operations: comparisons, logic, bit
    operations, shifts, toInt. *)
From Coq Require Import ZArith List Lia Bool Znumtheory ZifyBool.
From Verif Require Import Limbs LimbsFacts Gen GenFacts Raw Spec MontFacts RawFacts Fr FrSpec ModRing FrFacts.
Import ListNotations.
Open Scope Z_scope.

Section FrOps2.
Variables (q : Z) (P : zq).
Hypothesis OK : zq_ok q P.
Hypothesis Q32 : 2 ^ 32 < q.
Notation n := (p_n64 P).
Notation R := (Rad n).
Notation at_ := (holds q n).
Notation "m |= p ~> v" := (elt q n m p v) (at level 70, p at level 60).

Local Ltac facts := pose proof (zk_gt1 _ _ OK); pose proof (zk_n _ _ OK); pose proof B_gt1.
Ltac tsplit H E E' := match type of H with
  | elt _ _ ?m ?p _ =>
    destruct (isLong (mt m p)) eqn:E;
    [destruct (long_cases _ _ _ _ _ H E) as [[E' ?]|[E' ?]]
    |destruct (short_cases _ _ _ _ _ H E) as [[E' ?]|[E' ?]]]; rewrite ?E'
  end.

Lemma signed_inj x y : 0 <= x < q -> 0 <= y < q -> signed q x = signed q y -> x = y.
Proof. unfold signed. intros. destruct (Z.leb_spec x (q / 2)), (Z.leb_spec y (q / 2)); lia. Qed.

Lemma signed_short s : is_int32 s -> signed q (s mod q) = s.
Proof.
  unfold is_int32, signed. intros Hs.
  pose proof (Z.div_mod q 2 ltac:(lia)). pose proof (Z.mod_pos_bound q 2 ltac:(lia)).
  destruct (Z.ltb_spec s 0).
  - rewrite <- (Z.mod_add s 1 q) by lia. rewrite Z.mod_small by lia.
    destruct (Z.leb_spec (s + 1 * q) (q / 2)); lia.
  - rewrite Z.mod_small by lia. destruct (Z.leb_spec s (q / 2)); lia.
Qed.

Lemma cmp_half_spec b m y : at_ m b y -> (cmp_half P b m <? 0) = negb (y <=? q / 2).
Proof.
  intros (Hb & Ey & Hy). unfold cmp_half. destruct (half_ok q P OK) as [Hh Eh].
  pose proof (mpn_cmp_lt (p_half P) (m b)). rewrite Ey, Eh in H.
  destruct (Z.leb_spec y (q / 2)); cbn [negb]; lia.
Qed.

Lemma rltL_spec a b m x y : at_ m a x -> at_ m b y ->
  rltL1L2 P a b m = if signed q x <? signed q y then 1 else 0.
Proof.
  intros Ha Hb. unfold rltL1L2, rltl1l2_n1, rltl1l2_p1.
  rewrite (cmp_half_spec _ _ _ Ha), (cmp_half_spec _ _ _ Hb).
  unfold rltRawL1L2, signed. destruct Ha as (_ & Ex & Hx), Hb as (_ & Ey & Hy).
  destruct (rawCmp_spec b a m) as (_ & _ & H). rewrite Ex, Ey in H. rewrite Z.gtb_ltb.
  pose proof (Z.ltb_spec 0 (rawCmp b a m)).
  destruct (Z.leb_spec x (q / 2)), (Z.leb_spec y (q / 2)); cbn [negb];
  match goal with |- context [?u <? ?v] => idtac | _ => idtac end;
  repeat match goal with |- context [Z.ltb ?u ?v] => destruct (Z.ltb_spec u v) end; lia.
Qed.

Lemma rgtL_spec a b m x y : at_ m a x -> at_ m b y ->
  rgtL1L2 P a b m = if signed q x >? signed q y then 1 else 0.
Proof.
  intros Ha Hb. unfold rgtL1L2, rgtl1l2_n1, rgtl1l2_p1.
  rewrite (cmp_half_spec _ _ _ Ha), (cmp_half_spec _ _ _ Hb).
  unfold rgtRawL1L2, signed. destruct Ha as (_ & Ex & Hx), Hb as (_ & Ey & Hy).
  destruct (rawCmp_spec b a m) as (H & _ & _). rewrite Ex, Ey in H. rewrite Z.gtb_ltb.
  destruct (Z.leb_spec x (q / 2)), (Z.leb_spec y (q / 2)); cbn [negb];
  repeat match goal with |- context [Z.ltb ?u ?v] => destruct (Z.ltb_spec u v) end; lia.
Qed.

Lemma elt_chg S p m m' v : chgs S m m' -> ~ In p S -> m |= p ~> v -> m' |= p ~> v.
Proof. intros C Hp. apply elt_same. apply C; auto. Qed.
Lemma at_chg S p m m' v : chgs S m m' -> ~ In p S -> at_ (ml m) p v -> at_ (ml m') p v.
Proof. intros C Hp. destruct (C p Hp) as (_ & _ & E). unfold holds. rewrite E. auto. Qed.

(** both operands brought to long normal form, whatever the order *)
Lemma usr01 p : usr p -> p <> T 0 /\ p <> T 1 /\ p <> T 2 /\ p <> T 3.
Proof. intros H. repeat split; apply usr_neq; auto; lia. Qed.

Ltac notin := let H := fresh in cbn; intuition (subst; try discriminate; auto; try congruence).

Section Cmp.
Variables (cmpL : ptr -> ptr -> rmem -> Z) (cmpS : Z -> Z -> bool).
Hypothesis cmpL_spec : forall a b m x y, at_ m a x -> at_ m b y ->
  cmpL a b m = if cmpS (signed q x) (signed q y) then 1 else 0.

Lemma rcmp_spec a b m x y : typed n m -> usr a -> usr b -> m |= a ~> x -> m |= b ~> y ->
  rcmp P cmpL cmpS a b m = if cmpS (signed q x) (signed q y) then 1 else 0.
Proof.
  intros Ht Hua Hub Ha Hb. unfold rcmp.
  destruct (usr01 a Hua) as (A0 & A1 & _). destruct (usr01 b Hub) as (B0 & B1 & _).
  destruct (isLong (mt m a)) eqn:Ea; destruct (isLong (mt m b)) eqn:Eb.
  - destruct (long_cases _ _ _ _ _ Ha Ea) as [[E1 E1']|[E1 E1']]; rewrite E1;
    destruct (long_cases _ _ _ _ _ Hb Eb) as [[E2 E2']|[E2 E2']]; rewrite E2.
    + unfold sq. destruct (toNormal_spec q P OK (T 0) a m x Ht Ha) as (C1 & _ & Ht1 & _ & L1 & _).
      set (m1 := Fr_toNormal P (T 0) a m) in *.
      assert (Hb1 : m1 |= b ~> y) by (eapply elt_chg; eauto; notin).
      destruct (toNormal_spec q P OK (T 1) b m1 y Ht1 Hb1) as (C2 & _ & _ & _ & L2 & _).
      apply cmpL_spec.
      * eapply at_chg; [exact C2|notin|auto].
      * apply L2. destruct (C1 b) as (_ & -> & _); [notin|auto].
    + destruct (toNormal_spec q P OK (T 0) a m x Ht Ha) as (C1 & _ & Ht1 & _ & L1 & _).
      apply cmpL_spec; auto. eapply at_chg; [exact C1|notin|]. apply elt_long; auto.
    + destruct (toNormal_spec q P OK (T 1) b m y Ht Hb) as (C1 & _ & Ht1 & _ & L1 & _).
      apply cmpL_spec; auto. eapply at_chg; [exact C1|notin|]. apply elt_long; auto.
    + apply cmpL_spec; apply elt_long; auto.
  - destruct (long_cases _ _ _ _ _ Ha Ea) as [[E1 E1']|[E1 E1']]; rewrite E1.
    + unfold sq. destruct (toLongNormal_spec q P OK Q32 (T 1) b m y Ht Hb) as (C1 & _ & Ht1 & _ & L1).
      set (m1 := Fr_toLongNormal P (T 1) b m) in *.
      assert (Ha1 : m1 |= a ~> x) by (eapply elt_chg; eauto; notin).
      destruct (toNormal_spec q P OK (T 0) a m1 x Ht1 Ha1) as (C2 & _ & _ & _ & L2 & _).
      apply cmpL_spec.
      * apply L2. destruct (C1 a) as (_ & -> & _); [notin|auto].
      * eapply at_chg; [exact C2|notin|auto].
    + destruct (toLongNormal_spec q P OK Q32 (T 1) b m y Ht Hb) as (C1 & _ & Ht1 & _ & L1).
      apply cmpL_spec; auto. eapply at_chg; [exact C1|notin|]. apply elt_long; auto.
  - destruct (long_cases _ _ _ _ _ Hb Eb) as [[E1 E1']|[E1 E1']]; rewrite E1.
    + unfold sq. destruct (toLongNormal_spec q P OK Q32 (T 0) a m x Ht Ha) as (C1 & _ & Ht1 & _ & L1).
      set (m1 := Fr_toLongNormal P (T 0) a m) in *.
      assert (Hb1 : m1 |= b ~> y) by (eapply elt_chg; eauto; notin).
      destruct (toNormal_spec q P OK (T 1) b m1 y Ht1 Hb1) as (C2 & _ & _ & _ & L2 & _).
      apply cmpL_spec.
      * eapply at_chg; [exact C2|notin|auto].
      * apply L2. destruct (C1 b) as (_ & -> & _); [notin|auto].
    + destruct (toLongNormal_spec q P OK Q32 (T 0) a m x Ht Ha) as (C1 & _ & Ht1 & _ & L1).
      apply cmpL_spec; auto. eapply at_chg; [exact C1|notin|]. apply elt_long; auto.
  - destruct (elt_short _ _ _ _ _ Ha Ea) as [S1 ->]. destruct (elt_short _ _ _ _ _ Hb Eb) as [S2 ->].
    rewrite !signed_short by auto. reflexivity.
Qed.
End Cmp.

Theorem Fr_rlt_spec a b m x y : typed n m -> usr a -> usr b -> m |= a ~> x -> m |= b ~> y ->
  Fr_rlt P a b m = if signed q x <? signed q y then 1 else 0.
Proof. intros. unfold Fr_rlt. apply rcmp_spec; auto. intros; apply rltL_spec; auto. Qed.
Theorem Fr_rgt_spec a b m x y : typed n m -> usr a -> usr b -> m |= a ~> x -> m |= b ~> y ->
  Fr_rgt P a b m = if signed q x >? signed q y then 1 else 0.
Proof. intros. unfold Fr_rgt. apply (rcmp_spec (rgtL1L2 P) Z.gtb); auto. intros; apply rgtL_spec; auto. Qed.

Lemma set_short_spec r v m : typed n m -> is_int32 v -> 0 <= v ->
  yields q n r m (set_short r v m) v.
Proof.
  intros Ht Hv H0. unfold set_short, sq. split; [exact Ht|]. split.
  - apply elt_short_intro; auto; cbn [ms mt ml setS setT]; rewrite ?upd_eq; auto.
    unfold is_int32 in Hv. rewrite Z.mod_small; lia.
  - intros p Hu Hp. repeat split; cbn [ms mt ml setT setS onL]; rewrite ?upd_neq by auto; auto.
Qed.

Lemma bit_int32 (b : bool) : is_int32 (if b then 1 else 0) /\ 0 <= (if b then 1 else 0).
Proof. unfold is_int32; destruct b; lia. Qed.

Definition b2z (b : bool) : Z := if b then 1 else 0.
Lemma set_bool r (b : bool) m : typed n m -> yields q n r m (set_short r (b2z b) m) (b2z b).
Proof. intros. apply set_short_spec; auto; apply (bit_int32 b). Qed.
Lemma lxor_bool (b : bool) : Z.lxor (b2z b) 1 = b2z (negb b).
Proof. destruct b; reflexivity. Qed.

Theorem Fr_lt_spec r a b m x y : typed n m -> usr a -> usr b -> m |= a ~> x -> m |= b ~> y ->
  yields q n r m (Fr_lt P r a b m) (b2z (signed q x <? signed q y)).
Proof. intros. unfold Fr_lt. rewrite (Fr_rlt_spec a b m x y) by auto. apply set_bool; auto. Qed.
Theorem Fr_geq_spec r a b m x y : typed n m -> usr a -> usr b -> m |= a ~> x -> m |= b ~> y ->
  yields q n r m (Fr_geq P r a b m) (b2z (signed q x >=? signed q y)).
Proof.
  intros. unfold Fr_geq. rewrite (Fr_rlt_spec a b m x y) by auto. fold (b2z (signed q x <? signed q y)).
  rewrite lxor_bool, Z.geb_leb, Z.leb_antisym. apply set_bool; auto.
Qed.
Theorem Fr_gt_spec r a b m x y : typed n m -> usr a -> usr b -> m |= a ~> x -> m |= b ~> y ->
  yields q n r m (Fr_gt P r a b m) (b2z (signed q x >? signed q y)).
Proof. intros. unfold Fr_gt. rewrite (Fr_rgt_spec a b m x y) by auto. apply (set_bool r (signed q x >? signed q y)); auto. Qed.
Theorem Fr_leq_spec r a b m x y : typed n m -> usr a -> usr b -> m |= a ~> x -> m |= b ~> y ->
  yields q n r m (Fr_leq P r a b m) (b2z (signed q x <=? signed q y)).
Proof.
  intros. unfold Fr_leq. rewrite (Fr_rgt_spec a b m x y) by auto. fold (b2z (signed q x >? signed q y)).
  rewrite lxor_bool, Z.gtb_ltb, <- Z.leb_antisym. apply set_bool; auto.
Qed.

(** ** Equality *)
Lemma reqL_spec a b m X Y : at_ m a X -> at_ m b Y -> reqL1L2 a b m = b2z (X =? Y).
Proof.
  intros (_ & Ex & _) (_ & Ey & _). unfold reqL1L2, b2z.
  destruct (rawCmp_spec b a m) as (_ & H & _). rewrite Ex, Ey in H.
  destruct (Z.eqb_spec (rawCmp b a m) 0), (Z.eqb_spec X Y); auto; lia.
Qed.
Lemma mont_inj x y : 0 <= x < q -> 0 <= y < q -> ((x * R) mod q =? (y * R) mod q) = (x =? y).
Proof.
  intros. destruct (Z.eqb_spec x y) as [->|Hn]; [apply Z.eqb_refl|].
  apply Z.eqb_neq. intros E. apply (Rad_cancel q P OK) in E. rewrite !Z.mod_small in E by lia. auto.
Qed.

Theorem Fr_req_spec a b m x y : typed n m -> usr a -> usr b -> m |= a ~> x -> m |= b ~> y ->
  Fr_req P a b m = b2z (x =? y).
Proof.
  intros Ht Hua Hub Ha Hb. unfold Fr_req.
  destruct (usr01 a Hua) as (A0 & A1 & _). destruct (usr01 b Hub) as (B0 & B1 & _).
  pose proof (elt_range _ _ _ _ _ Ha) as Rx. pose proof (elt_range _ _ _ _ _ Hb) as Ry.
  destruct (isLong (mt m a)) eqn:Ea; destruct (isLong (mt m b)) eqn:Eb.
  - destruct (long_cases _ _ _ _ _ Ha Ea) as [[E1 E1']|[E1 E1']]; rewrite E1;
    destruct (long_cases _ _ _ _ _ Hb Eb) as [[E2 E2']|[E2 E2']]; rewrite E2.
    + rewrite (reqL_spec a b _ ((x * R) mod q) ((y * R) mod q)) by (apply elt_mont; auto). f_equal. apply mont_inj; auto.
    + destruct (toMontgomery_spec q P OK (T 1) b m y Ht Hb) as (C & _ & _ & _ & L & _).
      rewrite (reqL_spec a (T 1) _ ((x * R) mod q) ((y * R) mod q)); auto. { f_equal. apply mont_inj; auto. }
      eapply at_chg; [exact C|notin|]. apply elt_mont; auto.
    + destruct (toMontgomery_spec q P OK (T 0) a m x Ht Ha) as (C & _ & _ & _ & L & _).
      rewrite (reqL_spec (T 0) b _ ((x * R) mod q) ((y * R) mod q)); auto. { f_equal. apply mont_inj; auto. }
      eapply at_chg; [exact C|notin|]. apply elt_mont; auto.
    + apply reqL_spec; apply elt_long; auto.
  - destruct (long_cases _ _ _ _ _ Ha Ea) as [[E1 E1']|[E1 E1']]; rewrite E1.
    + destruct (toMontgomery_spec q P OK (T 1) b m y Ht Hb) as (C & _ & _ & _ & L & _).
      rewrite (reqL_spec a (T 1) _ ((x * R) mod q) ((y * R) mod q)); auto. { f_equal. apply mont_inj; auto. }
      eapply at_chg; [exact C|notin|]. apply elt_mont; auto.
    + destruct (toLongNormal_spec q P OK Q32 (T 1) b m y Ht Hb) as (C1 & _ & Ht1 & _ & L1).
      apply reqL_spec; auto. eapply at_chg; [exact C1|notin|]. apply elt_long; auto.
  - destruct (long_cases _ _ _ _ _ Hb Eb) as [[E1 E1']|[E1 E1']]; rewrite E1.
    + destruct (toMontgomery_spec q P OK (T 0) a m x Ht Ha) as (C & _ & _ & _ & L & _).
      rewrite (reqL_spec (T 0) b _ ((x * R) mod q) ((y * R) mod q)); auto. { f_equal. apply mont_inj; auto. }
      eapply at_chg; [exact C|notin|]. apply elt_mont; auto.
    + destruct (toLongNormal_spec q P OK Q32 (T 0) a m x Ht Ha) as (C1 & _ & Ht1 & _ & L1).
      apply reqL_spec; auto. eapply at_chg; [exact C1|notin|]. apply elt_long; auto.
  - destruct (elt_short _ _ _ _ _ Ha Ea) as [S1 ->]. destruct (elt_short _ _ _ _ _ Hb Eb) as [S2 ->].
    fold (b2z (ms m a =? ms m b)). f_equal.
    destruct (Z.eqb_spec (ms m a) (ms m b)) as [->|Hn]; [symmetry; apply Z.eqb_refl|].
    symmetry. apply Z.eqb_neq. intros E. apply Hn.
    rewrite <- (signed_short (ms m a)), <- (signed_short (ms m b)), E by auto. reflexivity.
Qed.

Theorem Fr_eq_spec r a b m x y : typed n m -> usr a -> usr b -> m |= a ~> x -> m |= b ~> y ->
  yields q n r m (Fr_eq P r a b m) (b2z (x =? y)).
Proof. intros. unfold Fr_eq. rewrite (Fr_req_spec a b m x y) by auto. apply set_bool; auto. Qed.
Theorem Fr_neq_spec r a b m x y : typed n m -> usr a -> usr b -> m |= a ~> x -> m |= b ~> y ->
  yields q n r m (Fr_neq P r a b m) (b2z (negb (x =? y))).
Proof.
  intros. unfold Fr_neq. rewrite (Fr_req_spec a b m x y) by auto. rewrite lxor_bool. apply set_bool; auto.
Qed.

(** ** Logic *)
Lemma long_zero a m x : m |= a ~> x -> isLong (mt m a) = true -> rawIsZero a (ml m) = b2z (x =? 0).
Proof.
  intros Ha Ea. rewrite rawIsZero_spec. pose proof (elt_range _ _ _ _ _ Ha) as Rx. facts.
  destruct (long_cases _ _ _ _ _ Ha Ea) as [[E1 E1']|[E1 E1']].
  - rewrite (at_ev _ _ _ _ _ (elt_mont _ _ OK _ _ _ Ha E1)).
    rewrite <- (mont_inj x 0) by lia. rewrite Z.mul_0_l, Z.mod_0_l by lia. reflexivity.
  - rewrite (at_ev _ _ _ _ _ (elt_long _ _ _ _ _ Ha E1')). reflexivity.
Qed.
Lemma short_zero a m x : m |= a ~> x -> isLong (mt m a) = false -> (ms m a =? 0) = (x =? 0).
Proof.
  intros Ha Ea. destruct (elt_short _ _ _ _ _ Ha Ea) as [S1 ->].
  destruct (Z.eqb_spec (ms m a) 0) as [->|Hn]; [rewrite Z.mod_0_l; [auto|lia]|].
  symmetry. apply Z.eqb_neq. intros E. apply Hn. rewrite <- (signed_short (ms m a)), E by auto.
  unfold signed. destruct (Z.leb_spec 0 (q / 2)); [auto|]. pose proof (Z.div_pos q 2). lia.
Qed.

Lemma truth_spec a m x : m |= a ~> x -> truth a m = b2z (negb (x =? 0)).
Proof.
  intros Ha. unfold truth. destruct (isLong (mt m a)) eqn:Ea.
  - rewrite (long_zero a m x) by auto. destruct (x =? 0); reflexivity.
  - rewrite (short_zero a m x) by auto. destruct (x =? 0); reflexivity.
Qed.
Theorem Fr_isTrue_spec a m x : m |= a ~> x -> Fr_isTrue a m = b2z (negb (x =? 0)).
Proof. apply truth_spec. Qed.
Theorem Fr_lor_spec r a b m x y : typed n m -> m |= a ~> x -> m |= b ~> y ->
  yields q n r m (Fr_lor r a b m) (b2z (negb (x =? 0) || negb (y =? 0))).
Proof.
  intros. unfold Fr_lor. rewrite (truth_spec a m x), (truth_spec b m y) by auto.
  replace (Z.lor _ _) with (b2z (negb (x =? 0) || negb (y =? 0))) by (destruct (x =? 0), (y =? 0); reflexivity).
  apply set_bool; auto.
Qed.
Theorem Fr_land_spec r a b m x y : typed n m -> m |= a ~> x -> m |= b ~> y ->
  yields q n r m (Fr_land r a b m) (b2z (negb (x =? 0) && negb (y =? 0))).
Proof.
  intros. unfold Fr_land. rewrite (truth_spec a m x), (truth_spec b m y) by auto.
  replace (Z.land _ _) with (b2z (negb (x =? 0) && negb (y =? 0))) by (destruct (x =? 0), (y =? 0); reflexivity).
  apply set_bool; auto.
Qed.
Theorem Fr_lnot_spec r a m x : typed n m -> m |= a ~> x ->
  yields q n r m (Fr_lnot r a m) (b2z (x =? 0)).
Proof.
  intros Ht Ha. unfold Fr_lnot. destruct (isLong (mt m a)) eqn:Ea.
  - rewrite (long_zero a m x) by auto. apply set_bool; auto.
  - rewrite (short_zero a m x) by auto. apply set_bool; auto.
Qed.

(** ** Bit operations *)
Lemma elt_setT_long r a m x : (r = a -> mt m a = LONG) -> m |= a ~> x -> (setT r LONG m) |= a ~> x.
Proof.
  intros H Ha. destruct (ptr_dec a r) as [->|Hn].
  - specialize (H eq_refl). unfold elt in *. cbn [ms mt ml setT]. rewrite upd_eq, <- H at 1. exact Ha.
  - eapply elt_chg; [apply chgs_setT| |exact Ha]. cbn; intuition congruence.
Qed.

Lemma word_limbs w : 0 <= w < B -> limbs_ok n (w :: repeat 0 (n - 1)) /\ eval (w :: repeat 0 (n - 1)) = w.
Proof.
  intros Hw. facts. assert (En : n = S (n - 1)) by lia. split.
  - rewrite En at 1. apply limbs_ok_cons; auto. apply limbs_ok_repeat0.
  - cbn [eval]. rewrite eval_repeat0. lia.
Qed.

Lemma widen_spec t x m v : typed n m -> t <> x ->
  is_int32 (ms m x) -> v = ms m x mod q -> (ms m x < 0 -> m |= x ~> v /\ isLong (mt m x) = false) ->
  chgs [t] m (widen P t x m) /\ typed n (widen P t x m) /\ at_ (ml (widen P t x m)) t v.
Proof.
  intros Ht Htx Hs Ev Hneg. unfold widen. pose proof B32. unfold is_int32 in Hs.
  destruct (Z.leb_spec 0 (ms m x)).
  - assert (Hat : at_ (upd (ml m) t (to_u64 (ms m x) :: repeat 0 (n - 1))) t v).
    { destruct (word_limbs (ms m x)) as [L1 L2]; [lia|].
      rewrite to_u64_id by lia. unfold holds. rewrite upd_eq. split; [exact L1|].
      rewrite L2, Ev, Z.mod_small; lia. }
    split; [|split].
    + intros p Hp; cbn in Hp. repeat split; cbn [ms mt ml]; rewrite upd_neq; auto.
    + eapply typed_holds; [exact Ht| |exact Hat]. intros p Hp. cbn [ml]. rewrite upd_neq; auto.
    + exact Hat.
  - destruct (Hneg ltac:(lia)) as [Hx _].
    destruct (toLongNormal_spec q P OK Q32 t x m v Ht Hx) as (C & _ & Ht1 & _ & L). auto.
Qed.

Section Bit.
Variables (rop : ptr -> ptr -> ptr -> rmem -> rmem) (sop : Z -> Z -> Z).
Hypothesis rop_spec : forall r a b m, limbs_ok n (m a) -> limbs_ok n (m b) ->
  at_ (rop r a b m) r ((sop (eval (m a)) (eval (m b)) mod 2 ^ p_bits P) mod q) /\ only r m (rop r a b m).
Hypothesis sop_comm : forall x y, sop x y = sop y x.
Hypothesis sop_int : forall x y, 0 <= x < 2 ^ 31 -> 0 <= y < 2 ^ 31 -> 0 <= sop x y < 2 ^ 31.

Notation res x y := ((sop x y mod 2 ^ p_bits P) mod q).

Lemma bit_fin S r a' b' m m2 x y : chgs S m m2 -> (forall p, In p S -> p = r \/ ~ usr p) ->
  typed n m2 -> mt m2 r = LONG -> at_ (ml m2) a' x -> at_ (ml m2) b' y ->
  yields q n r m (onL (rop r a' b') m2) (res x y).
Proof.
  intros C HS Ht Hr Ha Hb.
  destruct (rop_spec r a' b' (ml m2) (at_ok _ _ _ _ _ Ha) (at_ok _ _ _ _ _ Hb)) as [H1 H2].
  rewrite (at_ev _ _ _ _ _ Ha), (at_ev _ _ _ _ _ Hb) in H1.
  split; [|split].
  - eapply typed_holds; [exact Ht|exact H2|exact H1].
  - apply elt_long_intro; cbn [mt ml onL]; auto.
  - eapply chgs_frame; [eapply chgs_trans; [exact C|apply chgs_onL; exact H2]|].
    intros p. rewrite in_app_iff. intros [Hp|[->|[]]]; auto.
Qed.

Ltac inS := let p := fresh "p" in intros p; cbn; intuition (subst; auto; right; cbn; lia).
Ltac at2 C := eapply at_chg; [exact C|notin|].

Lemma bits_pow : 2 ^ 31 <= 2 ^ p_bits P.
Proof.
  pose proof (zk_bits _ _ OK) as Hb. facts. 
  pose proof (zk_bits_range _ _ OK).
  destruct (Z.lt_ge_cases (p_bits P) 31) as [Hlt|]; [|apply Z.pow_le_mono_r; lia].
  exfalso. pose proof (Z.pow_lt_mono_r 2 (p_bits P) 31 ltac:(lia) ltac:(lia) Hlt).
  lia.
Qed.

Theorem Fr_bit_spec r a b m x y : typed n m -> usr r -> usr a -> usr b -> bit_alias_ok r a b m ->
  m |= a ~> x -> m |= b ~> y -> yields q n r m (Fr_bit P rop sop r a b m) (res x y).
Proof.
  intros Ht Hur Hua Hub [Hra Hrb] Ha Hb. unfold Fr_bit.
  destruct (usr01 a Hua) as (A0 & A1 & _). destruct (usr01 b Hub) as (B0 & B1 & _).
  destruct (usr01 r Hur) as (R0 & R1 & _).
  unfold bit_alias1 in *.
  set (m1 := setT r LONG m).
  assert (C1 : chgs [r] m m1) by apply chgs_setT.
  assert (Ht1 : typed n m1) by exact Ht.
  assert (Er : mt m1 r = LONG) by apply upd_eq.
  destruct (isLong (mt m a)) eqn:Ea; destruct (isLong (mt m b)) eqn:Eb.
  - assert (Ha1 : m1 |= a ~> x).
    { apply elt_setT_long; auto. intros ->. destruct Hra as [?|[? _]]; auto; discriminate. }
    assert (Hb1 : m1 |= b ~> y).
    { apply elt_setT_long; auto. intros ->. destruct Hrb as [?|[? _]]; auto; discriminate. }
    assert (Na : mt m a = LONGMONTGOMERY -> r <> a).
    { intros E ->. destruct Hra as [?|[? _]]; auto; rewrite E in *; discriminate. }
    assert (Nb : mt m b = LONGMONTGOMERY -> r <> b).
    { intros E ->. destruct Hrb as [?|[? _]]; auto; rewrite E in *; discriminate. }
    assert (Ta : isLong (mt m1 a) = true) by (cbn; unfold upd; destruct (ptr_eqb a r); auto).
    assert (Tb : isLong (mt m1 b) = true) by (cbn; unfold upd; destruct (ptr_eqb b r); auto).
    destruct (long_cases _ _ _ _ _ Ha Ea) as [[E1 E1']|[E1 E1']]; rewrite E1;
    destruct (long_cases _ _ _ _ _ Hb Eb) as [[E2 E2']|[E2 E2']]; rewrite E2.
    + unfold bit_l1ml2m, sq. fold m1.
      destruct (toNormal_spec q P OK (T 0) a m1 x Ht1 Ha1) as (C2 & _ & Ht2 & _ & L2 & _).
      set (m2 := Fr_toNormal P (T 0) a m1) in *.
      assert (Hb2 : m2 |= b ~> y) by (eapply elt_chg; eauto; notin).
      destruct (toNormal_spec q P OK (T 1) b m2 y Ht2 Hb2) as (C3 & _ & Ht3 & _ & L3 & _).
      eapply bit_fin; [exact (chgs_trans _ _ _ _ _ C1 (chgs_trans _ _ _ _ _ C2 C3))|inS|auto| | |].
      * destruct (C3 r) as (_ & -> & _); [notin|]. destruct (C2 r) as (_ & -> & _); [notin|auto].
      * at2 C3. auto.
      * apply L3. destruct (C2 b) as (_ & -> & _); [notin|auto].
    + unfold bit_l1ml2n, sq. fold m1.
      destruct (toNormal_spec q P OK (T 0) a m1 x Ht1 Ha1) as (C2 & _ & Ht2 & _ & L2 & _).
      eapply bit_fin; [exact (chgs_trans _ _ _ _ _ C1 C2)|inS|auto| | |].
      * destruct (C2 r) as (_ & -> & _); [notin|auto].
      * auto.
      * at2 C2. apply (elt_long _ _ _ _ _ Hb); auto.
    + unfold bit_l1nl2m, sq. fold m1.
      destruct (toNormal_spec q P OK (T 1) b m1 y Ht1 Hb1) as (C2 & _ & Ht2 & _ & L2 & _).
      eapply bit_fin; [exact (chgs_trans _ _ _ _ _ C1 C2)|inS|auto| | |].
      * destruct (C2 r) as (_ & -> & _); [notin|auto].
      * at2 C2. apply (elt_long _ _ _ _ _ Ha); auto.
      * auto.
    + unfold bit_l1nl2n, sq. fold m1.
      eapply bit_fin; [exact C1|inS|auto|auto| |].
      * apply (elt_long _ _ _ _ _ Ha); auto.
      * apply (elt_long _ _ _ _ _ Hb); auto.
  - destruct (elt_short _ _ _ _ _ Hb Eb) as [S2 V2].
    assert (Ha1 : m1 |= a ~> x).
    { apply elt_setT_long; auto. intros ->. destruct Hra as [?|[? _]]; auto; discriminate. }
    assert (Ta : isLong (mt m1 a) = true) by (cbn; unfold upd; destruct (ptr_eqb a r); auto).
    assert (Hneg : ms m b < 0 -> r <> b).
    { intros Hn ->. destruct Hrb as [E|(_ & ? & _)]; auto; [rewrite E in Eb; discriminate|lia]. }
    assert (Hw : ms m1 b < 0 -> m1 |= b ~> y /\ isLong (mt m1 b) = false).
    { intros Hn. specialize (Hneg Hn). split; [apply elt_setT_long; auto; congruence|].
      cbn. rewrite upd_neq; auto. }
    destruct (long_cases _ _ _ _ _ Ha Ea) as [[E1 E1']|[E1 E1']]; rewrite E1.
    + unfold bit_l1ms2, sq. fold m1.
      destruct (toNormal_spec q P OK (T 0) a m1 x Ht1 Ha1) as (C2 & _ & Ht2 & _ & L2 & _).
      set (m2 := Fr_toNormal P (T 0) a m1) in *.
      assert (Sb : same_at b m1 m2) by (apply C2; notin). pose proof Sb as (Sb1 & Sb2 & _).
      destruct (widen_spec (T 1) b m2 y) as (C3 & Ht3 & L3); auto; try rewrite Sb1; auto.
      { intros Hn. destruct (Hw Hn) as [W1 W2]. split; [eapply elt_same; eauto|congruence]. }
      rewrite (sop_comm x y).
      eapply bit_fin; [exact (chgs_trans _ _ _ _ _ C1 (chgs_trans _ _ _ _ _ C2 C3))|inS|auto| | |].
      * destruct (C3 r) as (_ & -> & _); [notin|]. destruct (C2 r) as (_ & -> & _); [notin|auto].
      * auto.
      * at2 C3. auto.
    + unfold bit_l1ns2, sq. fold m1.
      destruct (widen_spec (T 1) b m1 y) as (C3 & Ht3 & L3); auto.
      eapply bit_fin; [exact (chgs_trans _ _ _ _ _ C1 C3)|inS|auto| | |].
      * destruct (C3 r) as (_ & -> & _); [notin|auto].
      * at2 C3. apply (elt_long _ _ _ _ _ Ha); auto.
      * auto.
  - destruct (elt_short _ _ _ _ _ Ha Ea) as [S2 V2].
    assert (Hb1 : m1 |= b ~> y).
    { apply elt_setT_long; auto. intros ->. destruct Hrb as [?|[? _]]; auto; discriminate. }
    assert (Tb : isLong (mt m1 b) = true) by (cbn; unfold upd; destruct (ptr_eqb b r); auto).
    assert (Hneg : ms m a < 0 -> r <> a).
    { intros Hn ->. destruct Hra as [E|(_ & ? & _)]; auto; [rewrite E in Ea; discriminate|lia]. }
    assert (Hw : ms m1 a < 0 -> m1 |= a ~> x /\ isLong (mt m1 a) = false).
    { intros Hn. specialize (Hneg Hn). split; [apply elt_setT_long; auto; congruence|].
      cbn. rewrite upd_neq; auto. }
    destruct (long_cases _ _ _ _ _ Hb Eb) as [[E1 E1']|[E1 E1']]; rewrite E1.
    + unfold bit_s1l2m, sq. fold m1.
      destruct (toNormal_spec q P OK (T 1) b m1 y Ht1 Hb1) as (C2 & _ & Ht2 & _ & L2 & _).
      set (m2 := Fr_toNormal P (T 1) b m1) in *.
      assert (Sb : same_at a m1 m2) by (apply C2; notin). pose proof Sb as (Sb1 & Sb2 & _).
      destruct (widen_spec (T 0) a m2 x) as (C3 & Ht3 & L3); auto; try rewrite Sb1; auto.
      { intros Hn. destruct (Hw Hn) as [W1 W2]. split; [eapply elt_same; eauto|congruence]. }
      eapply bit_fin; [exact (chgs_trans _ _ _ _ _ C1 (chgs_trans _ _ _ _ _ C2 C3))|inS|auto| | |].
      * destruct (C3 r) as (_ & -> & _); [notin|]. destruct (C2 r) as (_ & -> & _); [notin|auto].
      * auto.
      * at2 C3. auto.
    + unfold bit_s1l2n, sq. fold m1.
      destruct (widen_spec (T 0) a m1 x) as (C3 & Ht3 & L3); auto.
      eapply bit_fin; [exact (chgs_trans _ _ _ _ _ C1 C3)|inS|auto| | |].
      * destruct (C3 r) as (_ & -> & _); [notin|auto].
      * auto.
      * at2 C3. apply (elt_long _ _ _ _ _ Hb); auto.
  - destruct (elt_short _ _ _ _ _ Ha Ea) as [S1 V1]. destruct (elt_short _ _ _ _ _ Hb Eb) as [S2 V2].
    unfold bit_s1s2. destruct (Z.leb_spec 0 (ms m a)) as [Ga|Ga], (Z.leb_spec 0 (ms m b)) as [Gb|Gb]; cbn [andb].
    { unfold is_int32 in S1, S2. rewrite V1, V2, (Z.mod_small (ms m a) q), (Z.mod_small (ms m b) q) by lia.
      pose proof (sop_int (ms m a) (ms m b) ltac:(lia) ltac:(lia)). pose proof bits_pow.
      rewrite (Z.mod_small _ (2 ^ p_bits P)) by lia. rewrite Z.mod_small by lia.
      apply (set_short_spec r (sop (ms m a) (ms m b)) m); auto; [unfold is_int32|]; lia. }
    all: assert (Nra : r <> a) by
      (intros ->; destruct Hra as [E|(_ & ? & H)]; auto; [rewrite E in Ea; discriminate|try specialize (H eq_refl); lia]).
    all: assert (Nrb : r <> b) by
      (intros ->; destruct Hrb as [E|(_ & ? & H)]; auto; [rewrite E in Eb; discriminate|try specialize (H eq_refl); lia]).
    all: assert (Ha1 : m1 |= a ~> x) by (apply elt_setT_long; auto; congruence).
    all: assert (Hb1 : m1 |= b ~> y) by (apply elt_setT_long; auto; congruence).
    all: unfold sq; fold m1.
    all: destruct (toLongNormal_spec q P OK Q32 (T 0) a m1 x Ht1 Ha1) as (C2 & _ & Ht2 & _ & L2).
    all: set (m2 := Fr_toLongNormal P (T 0) a m1) in *.
    all: assert (Hb2 : m2 |= b ~> y) by (eapply elt_chg; eauto; notin).
    all: destruct (toLongNormal_spec q P OK Q32 (T 1) b m2 y Ht2 Hb2) as (C3 & _ & Ht3 & _ & L3).
    all: eapply bit_fin; [exact (chgs_trans _ _ _ _ _ C1 (chgs_trans _ _ _ _ _ C2 C3))|inS|auto| | |auto].
    1,3,5: destruct (C3 r) as (_ & -> & _); [notin|]; destruct (C2 r) as (_ & -> & _); [notin|auto].
    all: at2 C3; auto.
Qed.
End Bit.
End FrOps2.
