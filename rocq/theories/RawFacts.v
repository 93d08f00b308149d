(** Proofs about the raw operations (portable implementation). *)
From Coq Require Import ZArith List Lia Bool Znumtheory ZifyBool.
From Verif Require Import Limbs LimbsFacts Gen GenFacts Raw Spec MontFacts.
Import ListNotations.
Open Scope Z_scope.

Lemma ptr_eqb_eq a b : ptr_eqb a b = true <-> a = b.
Proof.
  destruct a, b; cbn; try (split; discriminate); rewrite Nat.eqb_eq; split; congruence.
Qed.
Lemma ptr_eqb_refl a : ptr_eqb a a = true.
Proof. now apply ptr_eqb_eq. Qed.
Lemma ptr_eqb_neq a b : a <> b -> ptr_eqb a b = false.
Proof. intros H. destruct (ptr_eqb a b) eqn:E; auto. apply ptr_eqb_eq in E; tauto. Qed.
Lemma ptr_dec (a b : ptr) : a = b \/ a <> b.
Proof. destruct (ptr_eqb a b) eqn:E; [left; now apply ptr_eqb_eq|right; intros ->; rewrite ptr_eqb_refl in E; discriminate]. Qed.
Lemma upd_eq {A} (m : ptr -> A) p v : upd m p v p = v.
Proof. unfold upd. now rewrite ptr_eqb_refl. Qed.
Lemma upd_neq {A} (m : ptr -> A) p v x : x <> p -> upd m p v x = m x.
Proof. intros. unfold upd. now rewrite ptr_eqb_neq. Qed.

Lemma only_upd r (m : rmem) v : only r m (upd m r v).
Proof. intros p Hp. now apply upd_neq. Qed.
Lemma only_trans r m1 m2 m3 : only r m1 m2 -> only r m2 m3 -> only r m1 m3.
Proof. intros H1 H2 p Hp. rewrite H2, H1; auto. Qed.
Lemma only_refl r m : only r m m.
Proof. intros p Hp; auto. Qed.
#[export] Hint Resolve only_upd only_refl : core.

Lemma mod_sub_once q v : 0 < q -> q <= v < 2 * q -> v mod q = v - q.
Proof. intros. replace v with ((v - q) + 1 * q) at 1 by lia. rewrite Z.mod_add, Z.mod_small; lia. Qed.
Lemma mod_add_once q v : 0 < q -> - q <= v < 0 -> v mod q = v + q.
Proof. intros. replace v with ((v + q) + (-1) * q) at 1 by lia. rewrite Z.mod_add, Z.mod_small; lia. Qed.

(** ** Sequential limb copies *)

Lemma nth_ext_get (a b : list Z) : length a = length b ->
  (forall i, (i < length a)%nat -> get a i = get b i) -> a = b.
Proof. intros. eapply nth_ext with (d := 0) (d' := 0); auto. Qed.

Lemma get_nth_firstn l k i : (i < k)%nat -> get (firstn k l) i = get l i.
Proof. unfold get. revert k i; induction l; intros; destruct k, i; cbn; auto; try lia. apply IHl; lia. Qed.
Lemma get_skipn l k i : get (skipn k l) i = get l (k + i).
Proof. unfold get. revert k; induction l; intros; destruct k; cbn; auto; destruct i; auto. Qed.

Lemma get_app a b i : get (a ++ b) i = if (i <? length a)%nat then get a i else get b (i - length a).
Proof. unfold get. destruct (Nat.ltb_spec i (length a)); [apply app_nth1|apply app_nth2]; lia. Qed.
Lemma get_repeat0 k i : get (repeat 0 k) i = 0.
Proof. unfold get. apply nth_repeat. Qed.

(** Copy within / between arrays of length [len] when no limb is read after
    being overwritten. *)
Lemma copyi_spec cnt : forall m r ro a ao len,
  length (m r) = len -> (ro + cnt <= len)%nat -> (r <> a \/ (ro <= ao)%nat) ->
  only r m (copyi m r ro a ao cnt) /\ length (copyi m r ro a ao cnt r) = len /\
  forall i, get (copyi m r ro a ao cnt r) i =
    if (ro <=? i)%nat && (i <? ro + cnt)%nat then get (m a) (ao + (i - ro)) else get (m r) i.
Proof.
  induction cnt as [|cnt IH]; intros m r ro a ao len Hlen Hb Hal.
  - cbn [copyi]. repeat split; auto. intros i.
    destruct (Nat.leb_spec ro i), (Nat.ltb_spec i (ro + 0)); cbn; auto; lia.
  - cbn [copyi]. set (m1 := upd m r (set (m r) ro (get (m a) ao))).
    assert (Hm1 : m1 r = set (m r) ro (get (m a) ao)) by apply upd_eq.
    destruct (IH m1 r (S ro) a (S ao) len) as (Ho & Hl & Hg); try lia.
    { rewrite Hm1, set_length; auto. }
    { destruct Hal; [left; auto|right; lia]. }
    repeat split; auto.
    { eapply only_trans; [|exact Ho]. apply only_upd. }
    intros i. rewrite Hg, Hm1.
    assert (Ha : forall j, (ao < j)%nat -> get (m1 a) j = get (m a) j).
    { intros j Hj. destruct (ptr_dec a r) as [->|Hne].
      - rewrite Hm1. apply get_set_neq. destruct Hal; [congruence|lia].
      - unfold m1. now rewrite upd_neq. }
    destruct (Nat.leb_spec (S ro) i), (Nat.ltb_spec i (S ro + cnt)); cbn [andb].
    + destruct (Nat.leb_spec ro i), (Nat.ltb_spec i (ro + S cnt)); cbn; try lia.
      rewrite Ha by lia. f_equal. lia.
    + destruct (Nat.leb_spec ro i), (Nat.ltb_spec i (ro + S cnt)); cbn; try lia.
      apply get_set_neq; lia.
    + destruct (Nat.leb_spec ro i), (Nat.ltb_spec i (ro + S cnt)); cbn; try lia.
      * assert (i = ro) by lia. subst i. rewrite get_set_eq by lia. f_equal. lia.
      * apply get_set_neq; lia.
    + destruct (Nat.leb_spec ro i), (Nat.ltb_spec i (ro + S cnt)); cbn; lia.
Qed.

Lemma zero_range_spec cnt : forall l off, (off + cnt <= length l)%nat ->
  length (zero_range l off cnt) = length l /\
  forall i, get (zero_range l off cnt) i =
    if (off <=? i)%nat && (i <? off + cnt)%nat then 0 else get l i.
Proof.
  induction cnt as [|cnt IH]; intros l off Hb; cbn [zero_range].
  - split; auto. intros i. destruct (Nat.leb_spec off i), (Nat.ltb_spec i (off + 0)); cbn; auto; lia.
  - destruct (IH (set l off 0) (S off)) as [Hl Hg]. { rewrite set_length; lia. }
    rewrite set_length in Hl. split; auto. intros i. rewrite Hg.
    destruct (Nat.leb_spec (S off) i), (Nat.ltb_spec i (S off + cnt)); cbn [andb];
    destruct (Nat.leb_spec off i), (Nat.ltb_spec i (off + S cnt)); cbn [andb]; try lia.
    + apply get_set_neq; lia.
    + assert (i = off) by lia. subst. apply get_set_eq; lia.
    + apply get_set_neq; lia.
Qed.

Lemma firstn_ok n k l : limbs_ok n l -> (k <= n)%nat -> limbs_ok k (firstn k l).
Proof.
  intros [H1 H2] Hk. split; [rewrite firstn_length; lia|].
  apply Forall_forall. intros x Hx. rewrite Forall_forall in H2. apply H2.
  rewrite <- (firstn_skipn k l). apply in_or_app; auto.
Qed.
Lemma skipn_ok n k l : limbs_ok n l -> (k <= n)%nat -> limbs_ok (n - k) (skipn k l).
Proof.
  intros [H1 H2] Hk. split; [rewrite skipn_length; lia|].
  apply Forall_forall. intros x Hx. rewrite Forall_forall in H2. apply H2.
  rewrite <- (firstn_skipn k l). apply in_or_app; auto.
Qed.
Lemma eval_firstn_skipn n k l : limbs_ok n l -> (k <= n)%nat ->
  eval (firstn k l) = eval l mod B ^ Z.of_nat k /\ eval (skipn k l) = eval l / B ^ Z.of_nat k.
Proof.
  intros Hl Hk. pose proof (firstn_ok _ _ _ Hl Hk) as Hf. pose proof (skipn_ok _ _ _ Hl Hk) as Hs.
  pose proof (eval_bound _ _ Hf). pose proof (eval_bound _ _ Hs).
  assert (E : eval l = eval (firstn k l) + B ^ Z.of_nat k * eval (skipn k l)).
  { rewrite <- (firstn_skipn k l) at 1. rewrite eval_app.
    destruct Hf as [Hf _]; rewrite Hf. reflexivity. }
  pose proof (Bpow_pos k).
  rewrite E. split.
  - rewrite Z.mul_comm, Z.mod_add, Z.mod_small; lia.
  - rewrite (Z.mul_comm (B ^ _)), Z.div_add, Z.div_small; lia.
Qed.

Section RawOps.
Variables (q : Z) (P : zq).
Hypothesis OK : zq_ok q P.
Notation n := (p_n64 P).
Notation R := (B ^ Z.of_nat n).
Notation at_ := (holds q n).

Local Definition qb := q_bound q P OK.
Local Definition Rpos : 0 < R := Bpow_pos n.
Local Definition q1 := zk_gt1 _ _ OK.
Local Definition n1 := zk_n _ _ OK.
Local Ltac facts := pose proof qb; pose proof Rpos; pose proof q1; pose proof n1; pose proof B_gt1.

Lemma Rad_R : Rad n = R.
Proof. unfold Rad. rewrite Bpow_2pow by lia. reflexivity. Qed.

Lemma holds_bound m p v : at_ m p v -> 0 <= v < R.
Proof. intros [H [E Hv]]. facts. lia. Qed.

Lemma cond_sub_spec (c : Z) m r : limbs_ok n (m r) -> 0 <= c ->
  eval (m r) + R * c < 2 * q ->
  at_ (cond_sub P (negb (c =? 0)) m r) r ((eval (m r) + R * c) mod q) /\
  only r m (cond_sub P (negb (c =? 0)) m r).
Proof.
  intros Hl Hc Hlt. facts.
  destruct (final_sub_spec q P OK (negb (c =? 0)) (m r) c Hl Hc eq_refl Hlt) as [H4 H5].
  unfold final_sub in *. unfold cond_sub.
  destruct (negb (c =? 0) || (mpn_cmp (m r) (p_q P) >=? 0)).
  - split; [|apply only_upd]. unfold holds. rewrite upd_eq. repeat split; auto; try apply H4; apply Z.mod_pos_bound; lia.
  - split; [|apply only_refl]. unfold holds. repeat split; auto; try apply H4; apply Z.mod_pos_bound; lia.
Qed.

Lemma cond_sub_spec0 m r : limbs_ok n (m r) -> eval (m r) < 2 * q ->
  at_ (cond_sub P false m r) r (eval (m r) mod q) /\ only r m (cond_sub P false m r).
Proof.
  intros H1 H2. pose proof (cond_sub_spec 0 m r H1 ltac:(lia)) as H.
  rewrite Z.mul_0_r, Z.add_0_r in H. apply H. lia.
Qed.

Theorem rawAdd_spec r a b m x y : at_ m a x -> at_ m b y ->
  at_ (rawAdd P r a b m) r ((x + y) mod q) /\ only r m (rawAdd P r a b m).
Proof.
  intros (Ha & Ex & Hx) (Hb & Ey & Hy). facts. unfold rawAdd, mpn_add_n. rewrite Ex, Ey.
  set (s := x + y). pose proof (Z.div_mod s R ltac:(lia)) as Hdm.
  pose proof (Z.mod_pos_bound s R ltac:(lia)).
  destruct (cond_sub_spec (s / R) (upd m r (to_limbs n s)) r) as [H5 H6].
  - rewrite upd_eq. apply to_limbs_ok.
  - apply Z.div_pos; lia.
  - rewrite upd_eq, eval_to_limbs. lia.
  - rewrite upd_eq, eval_to_limbs in H5. rewrite (Z.add_comm (s mod R)), <- Hdm in H5.
    split; auto. eapply only_trans; [apply only_upd|exact H6].
Qed.

Theorem rawAddLS_spec r a w m x : at_ m a x -> 0 <= w < B -> w <= q ->
  at_ (rawAddLS P r a w m) r ((x + w) mod q) /\ only r m (rawAddLS P r a w m).
Proof.
  intros (Ha & Ex & Hx) Hw Hwq. facts. unfold rawAddLS, mpn_add_1. rewrite Ex.
  set (s := x + w). pose proof (Z.div_mod s R ltac:(lia)) as Hdm.
  pose proof (Z.mod_pos_bound s R ltac:(lia)).
  destruct (cond_sub_spec (s / R) (upd m r (to_limbs n s)) r) as [H5 H6].
  - rewrite upd_eq. apply to_limbs_ok.
  - apply Z.div_pos; lia.
  - rewrite upd_eq, eval_to_limbs. lia.
  - rewrite upd_eq, eval_to_limbs in H5. rewrite (Z.add_comm (s mod R)), <- Hdm in H5.
    split; auto. eapply only_trans; [apply only_upd|exact H6].
Qed.

(** Subtraction with borrow correction, shared shape. *)
Lemma sub_fix_spec m r s : - q <= s < q ->
  let m1 := upd m r (to_limbs n s) in
  let m2 := if negb ((if s <? 0 then 1 else 0) =? 0) then upd m1 r (fst (mpn_add_n n (m1 r) (p_q P))) else m1 in
  at_ m2 r (s mod q) /\ only r m m2.
Proof.
  intros Hs m1 m2. facts.
  assert (Hm1 : m1 r = to_limbs n s) by apply upd_eq.
  unfold m2. destruct (Z.ltb_spec s 0); cbn [Z.eqb negb].
  - split; [|eapply only_trans; apply only_upd].
    unfold holds. rewrite upd_eq. unfold mpn_add_n; cbn [fst].
    split; [apply to_limbs_ok|]. rewrite Hm1, !eval_to_limbs, (q_eval q P OK).
    rewrite Z.add_mod_idemp_l by lia. rewrite (mod_add_once q s) by lia.
    split; [|lia]. apply Z.mod_small. lia.
  - split; [|apply only_upd]. unfold holds. rewrite Hm1. split; [apply to_limbs_ok|].
    rewrite eval_to_limbs, !Z.mod_small by lia. lia.
Qed.

Theorem rawSub_spec r a b m x y : at_ m a x -> at_ m b y ->
  at_ (rawSub P r a b m) r ((x - y) mod q) /\ only r m (rawSub P r a b m).
Proof.
  intros (Ha & Ex & Hx) (Hb & Ey & Hy). unfold rawSub, mpn_sub_n. rewrite Ex, Ey.
  apply (sub_fix_spec m r (x - y)). lia.
Qed.

Theorem rawSubLS_spec r a w m x : at_ m a x -> 0 <= w < B -> w <= q ->
  at_ (rawSubLS P r a w m) r ((x - w) mod q) /\ only r m (rawSubLS P r a w m).
Proof.
  intros (Ha & Ex & Hx) Hw Hwq. unfold rawSubLS, mpn_sub_1. rewrite Ex.
  apply (sub_fix_spec m r (x - w)). lia.
Qed.

Theorem rawSubSL_spec r w b m y : 0 <= w < B -> w < q -> at_ m b y ->
  at_ (rawSubSL P r w b m) r ((w - y) mod q) /\ only r m (rawSubSL P r w b m).
Proof.
  intros Hw Hwq (Hb & Ey & Hy). unfold rawSubSL, mpn_sub_n.
  cbn [eval]. rewrite eval_repeat0, Ey. replace (w + B * 0 - y) with (w - y) by ring.
  apply (sub_fix_spec m r (w - y)). lia.
Qed.

Theorem rawSubRegular_spec r a b m x y : at_ m a x -> at_ m b y -> y <= x ->
  at_ (rawSubRegular P r a b m) r (x - y) /\ only r m (rawSubRegular P r a b m).
Proof.
  intros (Ha & Ex & Hx) (Hb & Ey & Hy) Hle. facts. unfold rawSubRegular, mpn_sub_n; cbn [fst]. rewrite Ex, Ey.
  split; [|apply only_upd]. unfold holds. rewrite upd_eq. split; [apply to_limbs_ok|].
  rewrite eval_to_limbs_small by lia. lia.
Qed.

Theorem rawNeg_spec r a m x : at_ m a x ->
  at_ (rawNeg P r a m) r ((- x) mod q) /\ only r m (rawNeg P r a m).
Proof.
  intros (Ha & Ex & Hx). facts. unfold rawNeg.
  destruct (Z.eqb_spec (mpn_cmp (m a) (repeat 0 n)) 0) as [E|E]; cbn [negb].
  - apply mpn_cmp_eq in E. rewrite eval_repeat0 in E.
    split; [|apply only_upd]. unfold holds. rewrite upd_eq, eval_repeat0.
    replace x with 0 by lia. change (- 0) with 0. rewrite Z.mod_0_l by lia.
    split; [apply limbs_ok_repeat0|lia].
  - rewrite mpn_cmp_eq, eval_repeat0 in E.
    split; [|apply only_upd]. unfold holds, mpn_sub_n; cbn [fst]. rewrite upd_eq, (q_eval q P OK).
    split; [apply to_limbs_ok|]. rewrite eval_to_limbs_small by lia.
    rewrite mod_add_once by lia. lia.
Qed.

(** r = -(a + w), provided r is not the array a and 0 < a + w <= 2q. *)
Theorem rawNegLS_spec r a w m x : r <> a -> at_ m a x -> 0 <= w < B -> 0 < x + w <= 2 * q ->
  at_ (rawNegLS P r a w m) r ((- (x + w)) mod q) /\ only r m (rawNegLS P r a w m).
Proof.
  intros Hra (Ha & Ex & Hx) Hw Hnz. facts. unfold rawNegLS, mpn_sub_1, mpn_sub_n, mpn_add_n; cbn [fst].
  rewrite !upd_eq. rewrite (upd_neq m r) by congruence. rewrite Ex, (q_eval q P OK).
  assert (Add : forall k, 0 <= q - w - x + q < q -> at_ (upd (upd m r (to_limbs n (q - w))) r (to_limbs n (eval (to_limbs n (k - x)) + q))) r ((- (x + w)) mod q) \/ k mod B ^ Z.of_nat n <> (q - w) mod B ^ Z.of_nat n).
  { intros k Hk. destruct (Z.eq_dec (k mod B ^ Z.of_nat n) ((q - w) mod B ^ Z.of_nat n)) as [E|E]; [left|right; exact E].
    unfold holds. rewrite upd_eq. split; [apply to_limbs_ok|].
    rewrite !eval_to_limbs. rewrite Z.add_mod_idemp_l by lia. replace (k - x + q) with (k + (q - x)) by ring. rewrite <- Z.add_mod_idemp_l, E, Z.add_mod_idemp_l by lia.
    replace (q - w + (q - x)) with (q - w - x + q) by ring.
    replace (- (x + w)) with ((q - w - x + q) + (-2) * q) by ring.
    rewrite Z.mod_add by lia. rewrite !Z.mod_small by lia. lia. }
  destruct (Z.ltb_spec (q - w) 0).
  - cbn [Z.eqb negb orb]. split; [|intros ? ?; rewrite !upd_neq by auto; reflexivity].
    destruct (Add (eval (to_limbs n (q - w))) ltac:(lia)) as [HH|HH]; [|rewrite eval_to_limbs, Z.mod_mod in HH by lia; congruence].
    unfold holds in *. rewrite upd_eq in HH |- *. exact HH.
  - rewrite (eval_to_limbs n (q - w)), (Z.mod_small (q - w)) by lia. cbn [Z.eqb negb orb].
    destruct (Z.ltb_spec (q - w - x) 0); cbn [Z.eqb negb].
    + split; [|intros ? ?; rewrite !upd_neq by auto; reflexivity].
      destruct (Add (q - w) ltac:(lia)) as [HH|HH]; [|congruence]. unfold holds in *. rewrite upd_eq in HH |- *. exact HH.
    + split; [|intros ? ?; rewrite !upd_neq by auto; reflexivity].
      unfold holds. rewrite upd_eq. split; [apply to_limbs_ok|].
      rewrite eval_to_limbs_small by lia.
      replace (- (x + w)) with ((q - w - x) + (-1) * q) by ring.
      rewrite Z.mod_add by lia. rewrite Z.mod_small by lia. lia.
Qed.

Theorem rawCopy_spec r a m : rawCopy r a m r = m a /\ only r m (rawCopy r a m).
Proof. split; [apply upd_eq|apply only_upd]. Qed.

Theorem rawMMul_spec r a b m y : limbs_ok n (m a) -> at_ m b y ->
  exists z, at_ (rawMMul P r a b m) r z /\ (z * Rad n) mod q = (eval (m a) * y) mod q /\
            only r m (rawMMul P r a b m).
Proof.
  intros Ha (Hb & Ey & Hy). unfold rawMMul.
  destruct (mmul_spec q P OK (m a) (m b) Ha Hb ltac:(lia)) as (H1 & H2 & H3).
  exists (eval (mmul P (m a) (m b))). unfold holds. rewrite upd_eq. repeat split; try apply H1; try lia; auto.
  rewrite Z.mul_comm, Rad_R, H3, Ey. reflexivity.
Qed.

Theorem rawMSquare_spec r a m x : at_ m a x ->
  exists z, at_ (rawMSquare P r a m) r z /\ (z * Rad n) mod q = (x * x) mod q /\
            only r m (rawMSquare P r a m).
Proof.
  intros H. destruct (rawMMul_spec r a a m x (proj1 H) H) as (z & H1 & H2 & H3).
  exists z. split; [exact H1|]. split; [|exact H3]. destruct H as (_ & <- & _). exact H2.
Qed.

Theorem rawMMul_c_spec r a bl m : limbs_ok n (m a) -> limbs_ok n bl -> eval bl < q ->
  exists z, at_ (rawMMul_c P r a bl m) r z /\ (z * Rad n) mod q = (eval (m a) * eval bl) mod q /\
            only r m (rawMMul_c P r a bl m).
Proof.
  intros Ha Hb Hy. unfold rawMMul_c.
  destruct (mmul_spec q P OK (m a) bl Ha Hb Hy) as (H1 & H2 & H3).
  exists (eval (mmul P (m a) bl)). unfold holds. rewrite upd_eq. repeat split; try apply H1; try lia; auto.
  rewrite Z.mul_comm, Rad_R, H3. reflexivity.
Qed.

Theorem rawMMul1_spec r a w m x : at_ m a x -> 0 <= w < B ->
  exists z, at_ (rawMMul1 P r a w m) r z /\ (z * Rad n) mod q = (x * w) mod q /\
            only r m (rawMMul1 P r a w m).
Proof.
  intros (Ha & Ex & Hx) Hw. unfold rawMMul1.
  destruct (mmul1_spec q P OK (m a) w Ha ltac:(lia) Hw) as (H1 & H2 & H3).
  exists (eval (mmul1 P (m a) w)). unfold holds. rewrite upd_eq. repeat split; try apply H1; try lia; auto.
  rewrite Z.mul_comm, Rad_R, H3, Ex. reflexivity.
Qed.
Theorem rawMMul1_c_spec r al w m : limbs_ok n al -> eval al < q -> 0 <= w < B ->
  exists z, at_ (rawMMul1_c P r al w m) r z /\ (z * Rad n) mod q = (eval al * w) mod q /\
            only r m (rawMMul1_c P r al w m).
Proof.
  intros Ha Hx Hw. unfold rawMMul1_c.
  destruct (mmul1_spec q P OK al w Ha Hx Hw) as (H1 & H2 & H3).
  exists (eval (mmul1 P al w)). unfold holds. rewrite upd_eq. repeat split; try apply H1; try lia; auto.
  rewrite Z.mul_comm, Rad_R, H3. reflexivity.
Qed.

Theorem rawFromMontgomery_spec r a m : limbs_ok n (m a) ->
  exists z, at_ (rawFromMontgomery P r a m) r z /\ (z * Rad n) mod q = eval (m a) mod q /\
            only r m (rawFromMontgomery P r a m).
Proof.
  intros Ha. unfold rawFromMontgomery.
  destruct (fromMont_spec q P OK (m a) Ha) as (H1 & H2 & H3).
  exists (eval (fromMont P (m a))). unfold holds. rewrite upd_eq. repeat split; try apply H1; try lia; auto.
  rewrite Z.mul_comm, Rad_R, H3. reflexivity.
Qed.

Lemma Rad_cancel x y : (x * Rad n) mod q = (y * Rad n) mod q -> x mod q = y mod q.
Proof. rewrite Rad_R, !(Z.mul_comm _ R). apply (R_cancel q P OK). Qed.

Lemma at_mod m p v x : at_ m p v -> v mod q = x mod q -> at_ m p (x mod q).
Proof. intros (H1 & H2 & H3) E. unfold holds. rewrite <- E, Z.mod_small by lia. auto. Qed.

Theorem rawToMontgomery_spec r a m : limbs_ok n (m a) ->
  at_ (rawToMontgomery P r a m) r ((eval (m a) * Rad n) mod q) /\ only r m (rawToMontgomery P r a m).
Proof.
  intros Ha. facts. unfold rawToMontgomery. destruct (R2_ok q P OK) as [HR2 ER2].
  destruct (rawMMul_c_spec r a (p_R2 P) m Ha HR2) as (z & H1' & H2' & H3').
  { rewrite ER2. apply Z.mod_pos_bound; lia. }
  split; auto. eapply at_mod; [exact H1'|]. apply Rad_cancel.
  rewrite H2', ER2, Z.mul_mod_idemp_r by lia. rewrite Rad_R. f_equal. ring.
Qed.

Theorem montgomery_roundtrip r a m : limbs_ok n (m a) ->
  at_ (rawFromMontgomery P r r (rawToMontgomery P r a m)) r (eval (m a) mod q).
Proof.
  intros Ha. destruct (rawToMontgomery_spec r a m Ha) as [(H1 & H2 & H3) _].
  destruct (rawFromMontgomery_spec r r _ H1) as (z & H4 & H5 & _).
  eapply at_mod; [exact H4|]. apply Rad_cancel. rewrite H5, H2. facts. now rewrite Z.mod_mod by lia.
Qed.

Theorem rawCmp_spec a b m :
  (rawCmp a b m < 0 <-> eval (m a) < eval (m b)) /\
  (rawCmp a b m = 0 <-> eval (m a) = eval (m b)) /\
  (rawCmp a b m > 0 <-> eval (m a) > eval (m b)).
Proof. unfold rawCmp. repeat split; try apply mpn_cmp_lt; try apply mpn_cmp_eq; apply mpn_cmp_gt. Qed.
Theorem rawIsEq_spec a b m : rawIsEq a b m = if eval (m a) =? eval (m b) then 1 else 0.
Proof.
  unfold rawIsEq. pose proof (mpn_cmp_eq (m a) (m b)).
  destruct (Z.eqb_spec (mpn_cmp (m a) (m b)) 0), (Z.eqb_spec (eval (m a)) (eval (m b))); tauto.
Qed.
Theorem rawIsZero_spec a m : rawIsZero a m = if eval (m a) =? 0 then 1 else 0.
Proof. reflexivity. Qed.

Theorem rawSwap_spec t r a m : t <> r -> t <> a ->
  rawSwap t r a m r = m a /\ rawSwap t r a m a = m r /\
  forall p, p <> r -> p <> a -> p <> t -> rawSwap t r a m p = m p.
Proof.
  intros Hr Ha. unfold rawSwap, rawCopy. repeat split.
  - destruct (ptr_dec r a) as [->|].
    + rewrite upd_eq, upd_neq, upd_eq by auto. reflexivity.
    + rewrite upd_neq, upd_eq, upd_neq by auto. reflexivity.
  - rewrite upd_eq, upd_neq, upd_eq by auto. reflexivity.
  - intros. rewrite !upd_neq by auto. reflexivity.
Qed.

Lemma repeat_ok v k : 0 <= v < B -> limbs_ok k (repeat v k).
Proof.
  intros. split; [apply repeat_length|]. apply Forall_forall. intros x Hx.
  apply repeat_spec in Hx; subst. lia.
Qed.
Lemma eval_repeat_max k : eval (repeat (B - 1) k) = B ^ Z.of_nat k - 1.
Proof. induction k; [reflexivity|]. cbn [repeat eval]. rewrite IHk, Bpow_S. ring. Qed.

(** Signed 64-bit word to long form. *)
Theorem rawCopyS2L_spec r v m : - 2 ^ 63 <= v < 2 ^ 63 -> - q <= v < q ->
  at_ (rawCopyS2L P r v m) r (v mod q) /\ only r m (rawCopyS2L P r v m).
Proof.
  intros Hv Hvq. facts. unfold rawCopyS2L.
  assert (HBn : R = B * B ^ Z.of_nat (n - 1)).
  { rewrite <- Bpow_S. do 2 f_equal. lia. }
  assert (HB63 : B = 2 * 2 ^ 63) by reflexivity.
  destruct (Z.ltb_spec v 0).
  - split; [|intros ? ?; rewrite !upd_neq by auto; reflexivity].
    unfold holds. rewrite !upd_eq. unfold get, mpn_add_n; cbn [fst nth].
    split; [apply to_limbs_ok|]. rewrite eval_to_limbs. cbn [eval].
    rewrite eval_repeat_max, (q_eval q P OK).
    replace (v mod B) with (v + B).
    + replace (v + B + B * (B ^ Z.of_nat (n - 1) - 1) + q) with ((v + q) + 1 * R) by (rewrite HBn; ring).
      rewrite Z.mod_add by lia. rewrite (mod_add_once q v) by lia. rewrite Z.mod_small; lia.
    + rewrite mod_add_once; lia.
  - split; [|apply only_upd]. unfold holds. rewrite upd_eq.
    rewrite !Z.mod_small by lia. cbn [eval]. rewrite eval_repeat0. split; [|lia].
    replace n with (S (n - 1)) by lia. replace (S (n - 1) - 1)%nat with (n - 1)%nat by lia.
    apply limbs_ok_cons; [lia|apply limbs_ok_repeat0].
Qed.

Theorem rawZero_spec r m : at_ (rawZero P r m) r 0 /\ only r m (rawZero P r m).
Proof.
  facts. unfold rawZero. split; [|apply only_upd]. unfold holds. rewrite upd_eq.
  split; [apply limbs_ok_repeat0|]. rewrite eval_repeat0. lia.
Qed.

(** Truncation to the bit length of q. *)
Lemma mask_top_spec m r : limbs_ok n (m r) ->
  limbs_ok n (mask_top P m r r) /\ eval (mask_top P m r r) = eval (m r) mod 2 ^ p_bits P /\
  only r m (mask_top P m r).
Proof.
  intros Hl. facts. pose proof (zk_bits_range _ _ OK) as Hbr.
  unfold mask_top. rewrite upd_eq.
  set (k := p_bits P - 64 * (Z.of_nat n - 1)) in *.
  assert (Hlbo : p_lbo P = Z.ones k).
  { rewrite (zk_lbo _ _ OK), Z.ones_equiv. reflexivity. }
  rewrite Hlbo, Z.land_ones by lia.
  pose proof (get_ok _ _ (n - 1) Hl ltac:(lia)) as Hg.
  assert (Hmb : 0 <= get (m r) (n - 1) mod 2 ^ k < 2 ^ k) by (apply Z.mod_pos_bound, Z.pow_pos_nonneg; lia).
  assert (2 ^ k <= B) by (rewrite B_eq; apply Z.pow_le_mono_r; lia).
  split; [apply set_ok; auto; lia|]. split; [|apply only_upd].
  rewrite eval_set by (destruct Hl as [-> _]; lia).
  set (g := get (m r) (n - 1)) in *.
  assert (Eg : g = eval (m r) / B ^ Z.of_nat (n - 1)).
  { unfold g. rewrite (get_eval n) by (auto; lia).
    apply Z.mod_small. pose proof (eval_bound _ _ Hl). pose proof (Bpow_pos (n - 1)).
    split; [apply Z.div_pos; lia|]. apply Z.div_lt_upper_bound; [lia|].
    rewrite Z.mul_comm, <- Bpow_S. replace (S (n - 1)) with n by lia. lia. }
  replace (2 ^ p_bits P) with (B ^ Z.of_nat (n - 1) * 2 ^ k).
  - pose proof (Bpow_pos (n - 1)).
    rewrite Z.rem_mul_r by (try apply Z.pow_nonzero; lia). rewrite <- Eg.
    rewrite (Z.mod_eq (eval (m r))) by lia. rewrite <- Eg. ring.
  - rewrite Bpow_2pow by lia. rewrite <- Z.pow_add_r by lia. f_equal. lia.
Qed.

Lemma two_bits : 0 < 2 ^ p_bits P /\ 2 ^ p_bits P <= 2 * q.
Proof.
  facts. pose proof (zk_bits _ _ OK). pose proof (zk_bits_range _ _ OK).
  split; [apply Z.pow_pos_nonneg; lia|].
  replace (p_bits P) with (1 + (p_bits P - 1)) by lia. rewrite Z.pow_add_r by lia. lia.
Qed.

Lemma mask_cond_spec m r l v : limbs_ok n l -> eval l mod 2 ^ p_bits P = v mod 2 ^ p_bits P ->
  at_ (cond_sub P false (mask_top P (upd m r l) r) r) r ((v mod 2 ^ p_bits P) mod q) /\
  only r m (cond_sub P false (mask_top P (upd m r l) r) r).
Proof.
  intros Hl Ev. facts. destruct two_bits.
  destruct (mask_top_spec (upd m r l) r) as (H6 & H7 & H8); [rewrite upd_eq; auto|].
  rewrite upd_eq in H7. pose proof (Z.mod_pos_bound (eval l) (2 ^ p_bits P) ltac:(lia)).
  destruct (cond_sub_spec0 (mask_top P (upd m r l) r) r H6) as [H10 H11]; [lia|].
  rewrite H7, Ev in H10. split; auto.
  eapply only_trans; [apply only_upd|]. eapply only_trans; eauto.
Qed.

Theorem rawAnd_spec r a b m : limbs_ok n (m a) -> limbs_ok n (m b) ->
  at_ (rawAnd P r a b m) r ((Z.land (eval (m a)) (eval (m b)) mod 2 ^ p_bits P) mod q) /\
  only r m (rawAnd P r a b m).
Proof.
  intros Ha Hb. destruct (eval_and n _ _ Ha Hb) as [H1 H2].
  apply mask_cond_spec; auto. now rewrite H2.
Qed.
Theorem rawOr_spec r a b m : limbs_ok n (m a) -> limbs_ok n (m b) ->
  at_ (rawOr P r a b m) r ((Z.lor (eval (m a)) (eval (m b)) mod 2 ^ p_bits P) mod q) /\
  only r m (rawOr P r a b m).
Proof.
  intros Ha Hb. destruct (eval_or n _ _ Ha Hb) as [H1 H2].
  apply mask_cond_spec; auto. now rewrite H2.
Qed.
Theorem rawXor_spec r a b m : limbs_ok n (m a) -> limbs_ok n (m b) ->
  at_ (rawXor P r a b m) r ((Z.lxor (eval (m a)) (eval (m b)) mod 2 ^ p_bits P) mod q) /\
  only r m (rawXor P r a b m).
Proof.
  intros Ha Hb. destruct (eval_xor n _ _ Ha Hb) as [H1 H2].
  apply mask_cond_spec; auto. now rewrite H2.
Qed.

Lemma bits_le_R : (2 ^ p_bits P | R).
Proof.
  pose proof (zk_bits_range _ _ OK). pose proof n1.
  rewrite Bpow_2pow by lia.
  exists (2 ^ (64 * Z.of_nat n - p_bits P)). rewrite <- Z.pow_add_r by lia. f_equal. lia.
Qed.

Theorem rawNot_spec r a m : limbs_ok n (m a) ->
  at_ (rawNot P r a m) r ((Z.lnot (eval (m a)) mod 2 ^ p_bits P) mod q) /\
  only r m (rawNot P r a m).
Proof.
  intros Ha. destruct (eval_com n _ Ha) as [H1 H2].
  apply mask_cond_spec; auto. rewrite H2. unfold Z.lnot.
  destruct bits_le_R as [k Hk]. destruct two_bits.
  replace (R - 1 - eval (m a)) with (Z.pred (- eval (m a)) + k * 2 ^ p_bits P) by (rewrite <- Hk; lia).
  apply Z.mod_add. lia.
Qed.

(** ** Shifts *)
Lemma word_split s : 0 <= s < 64 * Z.of_nat n ->
  (Z.to_nat (s / 64) < n)%nat /\ 0 <= s mod 64 < 64 /\
  2 ^ s = B ^ Z.of_nat (Z.to_nat (s / 64)) * 2 ^ (s mod 64).
Proof.
  intros Hs. pose proof (Z.div_mod s 64). pose proof (Z.mod_pos_bound s 64).
  pose proof (Z.div_pos s 64). split; [lia|]. split; [lia|].
  rewrite Bpow_2pow by lia. rewrite <- Z.pow_add_r by lia. f_equal. lia.
Qed.

Theorem rawShl_spec r a s m : limbs_ok n (m a) -> length (m r) = n ->
  0 <= s < 64 * Z.of_nat n -> (r <> a \/ s < 64) ->
  at_ (rawShl P r a s m) r (((eval (m a) * 2 ^ s) mod 2 ^ p_bits P) mod q) /\
  only r m (rawShl P r a s m).
Proof.
  intros Ha Hr Hs Hal. facts. unfold rawShl.
  destruct (word_split s Hs) as (Hw & Hbs & E2).
  set (w := Z.to_nat (s / 64)) in *. set (bs := s mod 64) in *.
  destruct (copyi_spec (n - w) m r w a 0 n Hr) as (Ho & Hl & Hg); [lia| |].
  { destruct Hal; auto. right. unfold w. assert (s / 64 = 0) by (apply Z.div_small; lia). lia. }
  set (m1 := copyi m r w a 0 (n - w)) in *.
  destruct (zero_range_spec w (m1 r) 0) as [Hl2 Hg2]; [lia|].
  assert (Ez : zero_range (m1 r) 0 w = repeat 0 w ++ firstn (n - w) (m a)).
  { apply nth_ext_get.
    - rewrite Hl2, app_length, repeat_length, firstn_length. destruct Ha as [-> _]. lia.
    - intros i Hi. rewrite Hl2, Hl in Hi. rewrite Hg2, Hg.
      destruct (Nat.ltb_spec i (0 + w)); cbn [Nat.leb andb].
      + rewrite get_app, repeat_length. destruct (Nat.ltb_spec i w); [|lia]. now rewrite get_repeat0.
      + rewrite get_app, repeat_length. destruct (Nat.ltb_spec i w); [lia|].
        destruct (Nat.leb_spec w i); [|lia]. destruct (Nat.ltb_spec i (w + (n - w))); [|lia]. cbn [andb].
        rewrite get_nth_firstn by lia. reflexivity. }
  set (l2 := repeat 0 w ++ firstn (n - w) (m a)) in *.
  assert (Hok2 : limbs_ok n l2).
  { replace n with (w + (n - w))%nat by lia. apply limbs_ok_app; [apply limbs_ok_repeat0|].
    apply (firstn_ok n); auto; lia. }
  assert (Ev2 : eval l2 = (eval (m a) * B ^ Z.of_nat w) mod R).
  { unfold l2. rewrite eval_app, eval_repeat0, repeat_length.
    destruct (eval_firstn_skipn n (n - w) (m a) Ha ltac:(lia)) as [-> _].
    replace R with (B ^ Z.of_nat w * B ^ Z.of_nat (n - w)).
    - rewrite (Z.mul_comm (eval (m a))). rewrite Z.mul_mod_distr_l; try lia; apply Z.pow_nonzero; lia.
    - rewrite <- Z.pow_add_r by lia. f_equal. lia. }
  rewrite Ez.
  set (l3 := if bs =? 0 then l2 else mpn_lshift n l2 bs).
  replace (if bs =? 0 then upd m1 r l2
           else upd (upd m1 r l2) r (mpn_lshift n (upd m1 r l2 r) bs))
    with (if bs =? 0 then upd m1 r l2 else upd (upd m1 r l2) r l3)
    by (unfold l3; rewrite upd_eq; destruct (bs =? 0); auto).
  assert (Hok3 : limbs_ok n l3) by (unfold l3; destruct (bs =? 0); [auto|apply to_limbs_ok]).
  assert (Ev3 : eval l3 mod 2 ^ p_bits P = (eval (m a) * 2 ^ s) mod 2 ^ p_bits P).
  { destruct bits_le_R as [k Hk]. destruct two_bits as [Htb _].
    assert (Hkp : 0 < k) by nia.
    assert (Hmm : forall z, (z mod R) mod 2 ^ p_bits P = z mod 2 ^ p_bits P).
    { intros z. rewrite Hk, (Z.mul_comm k). rewrite Z.rem_mul_r by lia.
      rewrite Z.mul_comm, Z.mod_add by lia. apply Z.mod_mod; lia. }
    rewrite E2. unfold l3. destruct (Z.eqb_spec bs 0) as [Eb|Eb].
    - rewrite Ev2, Hmm, Eb. f_equal. change (2 ^ 0) with 1. ring.
    - unfold mpn_lshift. rewrite eval_to_limbs, Hmm, Ev2.
      rewrite <- Z.mul_mod_idemp_l by lia. rewrite Hmm.
      rewrite Z.mul_mod_idemp_l by lia. f_equal. ring. }
  destruct (bs =? 0) eqn:Ebs.
  - destruct (mask_cond_spec m1 r l2 (eval (m a) * 2 ^ s)) as [H4 H5]; auto.
    split; auto. eapply only_trans; eauto.
  - destruct (mask_cond_spec (upd m1 r l2) r l3 (eval (m a) * 2 ^ s)) as [H4 H5]; auto.
    split; auto. eapply only_trans; [exact Ho|]. eapply only_trans; [apply only_upd|exact H5].
Qed.

(** Right shift, in place or not. *)
Theorem rawShr_spec r a s m : limbs_ok n (m a) -> length (m r) = n ->
  0 <= s < 64 * Z.of_nat n ->
  limbs_ok n (rawShr P r a s m r) /\ eval (rawShr P r a s m r) = eval (m a) / 2 ^ s /\
  only r m (rawShr P r a s m).
Proof.
  intros Ha Hr Hs. facts. unfold rawShr.
  destruct (word_split s Hs) as (Hw & Hbs & E2).
  set (w := Z.to_nat (s / 64)) in *. set (bs := s mod 64) in *.
  destruct (copyi_spec (n - w) m r 0 a w n Hr) as (Ho & Hl & Hg); [lia| right; lia |].
  set (m1 := copyi m r 0 a w (n - w)) in *.
  destruct (zero_range_spec w (m1 r) (n - w)) as [Hl2 Hg2]; [lia|].
  assert (Ez : zero_range (m1 r) (n - w) w = skipn w (m a) ++ repeat 0 w).
  { apply nth_ext_get.
    - rewrite Hl2, app_length, repeat_length, skipn_length. destruct Ha as [-> _]. lia.
    - intros i Hi. rewrite Hl2, Hl in Hi. rewrite Hg2, Hg.
      assert (Hsl : length (skipn w (m a)) = (n - w)%nat) by (rewrite skipn_length; destruct Ha as [-> _]; lia).
      rewrite get_app, Hsl. destruct (Nat.leb_spec (n - w) i).
      + destruct (Nat.ltb_spec i (n - w + w)); [|lia]. destruct (Nat.ltb_spec i (n - w)); [lia|].
        cbn [andb]. now rewrite get_repeat0.
      + cbn [andb Nat.leb]. destruct (Nat.ltb_spec i (0 + (n - w))); [|lia].
        destruct (Nat.ltb_spec i (n - w)); [|lia].
        rewrite get_skipn. f_equal. lia. }
  set (l2 := skipn w (m a) ++ repeat 0 w) in *.
  assert (Hok2 : limbs_ok n l2).
  { replace n with ((n - w) + w)%nat by lia. apply limbs_ok_app; [|apply limbs_ok_repeat0].
    replace (n - w + w)%nat with n by lia. apply skipn_ok; auto; lia. }
  assert (Ev2 : eval l2 = eval (m a) / B ^ Z.of_nat w).
  { unfold l2. rewrite eval_app, eval_repeat0.
    destruct (eval_firstn_skipn n w (m a) Ha ltac:(lia)) as [_ ->]. ring. }
  rewrite Ez. pose proof (Bpow_pos w).
  destruct (Z.eqb_spec bs 0) as [Eb|Eb].
  - rewrite upd_eq. split; [auto|]. split.
    + rewrite Ev2, E2, Eb. f_equal. change (2 ^ 0) with 1. ring.
    + eapply only_trans; [exact Ho|apply only_upd].
  - rewrite !upd_eq. split; [apply to_limbs_ok|]. split.
    + unfold mpn_rshift. pose proof (eval_bound _ _ Hok2).
      assert (0 < 2 ^ bs) by (apply Z.pow_pos_nonneg; lia).
      rewrite eval_to_limbs_small.
      * rewrite Ev2, E2. rewrite Z.div_div by lia. reflexivity.
      * split; [apply Z.div_pos; lia|]. apply Z.div_lt_upper_bound; nia.
    + eapply only_trans; [exact Ho|]. eapply only_trans; apply only_upd.
Qed.

End RawOps.

Theorem generator_spec : forall q, 1 < q -> Z.odd q = true -> exists P,
  build q = Some P /\
  (let n := p_n64 P in let R := Rad n in
   (1 <= n)%nat /\ 2 ^ (64 * (Z.of_nat n - 1)) <= q < R /\
   limbs_ok n (p_q P) /\ eval (p_q P) = q /\ p_rawq P = p_q P ++ [0] /\
   limbs_ok n (p_R2 P) /\ eval (p_R2 P) = R ^ 2 mod q /\
   limbs_ok n (p_R3 P) /\ eval (p_R3 P) = R ^ 3 mod q /\
   limbs_ok n (p_half P) /\ eval (p_half P) = (q - 1) / 2 /\
   0 < p_np P < 2 ^ 64 /\ (p_np P * q) mod 2 ^ 64 = 2 ^ 64 - 1 /\
   2 ^ (p_bits P - 1) <= q < 2 ^ p_bits P /\
   p_lbo P = 2 ^ (p_bits P - 64 * (Z.of_nat n - 1)) - 1 /\
   (p_opt P = true <-> q / 2 ^ (64 * (Z.of_nat n - 1)) <= 2 ^ 63 - 2) /\
   (p_opt P = true -> 2 * q < R)).
Proof.
  intros q H1 H2. destruct (build_odd q H1 H2) as [P HP]. exists P. split; [exact HP|].
  pose proof (build_ok q P H1 HP) as OK. cbv zeta. rewrite (Rad_R P).
  pose proof (zk_n _ _ OK). pose proof (zk_lo _ _ OK) as Hlo. rewrite Bpow_2pow in Hlo by lia.
  repeat match goal with |- _ /\ _ => split end.
  - apply (zk_n _ _ OK).
  - exact Hlo.
  - apply (zk_hi _ _ OK).
  - apply (q_ok q P OK).
  - apply (q_eval q P OK).
  - apply (zk_rawq _ _ OK).
  - apply (R2_ok q P OK).
  - destruct (R2_ok q P OK) as [_ ->]. f_equal. ring.
  - apply (R3_ok q P OK).
  - destruct (R3_ok q P OK) as [_ ->]. f_equal. ring.
  - apply (half_ok q P OK).
  - destruct (half_ok q P OK) as [_ ->].
    rewrite (Z.div_mod q 2) at 2 by lia. rewrite Zmod_odd, H2.
    replace (2 * (q / 2) + 1 - 1) with (q / 2 * 2) by ring. now rewrite Z.div_mul by lia.
  - apply (zk_np_range _ _ OK).
  - apply (zk_np_range _ _ OK).
  - pose proof (zk_np _ _ OK) as Hnp. change B with (2 ^ 64) in Hnp.
    replace (p_np P * q) with (q * p_np P + 1 + -1) by ring.
    rewrite Z.add_mod, Hnp by lia. reflexivity.
  - apply (zk_bits _ _ OK).
  - apply (zk_bits _ _ OK).
  - apply (zk_lbo _ _ OK).
  - destruct (build_n64 q P HP) as [E1 E2]. rewrite E1, E2. unfold gen_opt.
    pose proof (gen_n64_pos q H1). rewrite Z.shiftr_div_pow2 by lia. rewrite Z.leb_le.
    rewrite (Z.mul_comm _ 64). reflexivity.
  - apply (zk_opt _ _ OK).
Qed.
