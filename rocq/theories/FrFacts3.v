(** Proofs about the tagged field operations: bit operations (instances), bnot,
    shifts, toInt. *)
From Coq Require Import ZArith List Lia Bool Znumtheory ZifyBool.
From Verif Require Import Limbs LimbsFacts Gen GenFacts Raw Spec MontFacts RawFacts Fr FrSpec ModRing FrFacts FrFacts2.
Import ListNotations.
Open Scope Z_scope.

Lemma lt_pow2_land x k : 0 <= k -> (0 <= x < 2 ^ k <-> Z.land x (Z.ones k) = x).
Proof.
  intros Hk. rewrite Z.land_ones by lia. pose proof (Z.pow_pos_nonneg 2 k ltac:(lia) Hk). split; intros.
  - apply Z.mod_small; lia.
  - rewrite <- H0. apply Z.mod_pos_bound; lia.
Qed.
Lemma land_int31 x y : 0 <= x < 2 ^ 31 -> 0 <= y < 2 ^ 31 -> 0 <= Z.land x y < 2 ^ 31.
Proof.
  intros Hx Hy. apply lt_pow2_land in Hx, Hy; try lia. apply lt_pow2_land; [lia|].
  rewrite <- Z.land_assoc, Hy. reflexivity.
Qed.
Lemma lor_int31 x y : 0 <= x < 2 ^ 31 -> 0 <= y < 2 ^ 31 -> 0 <= Z.lor x y < 2 ^ 31.
Proof.
  intros Hx Hy. apply lt_pow2_land in Hx, Hy; try lia. apply lt_pow2_land; [lia|].
  rewrite Z.land_lor_distr_l, Hx, Hy. reflexivity.
Qed.
Lemma lxor_int31 x y : 0 <= x < 2 ^ 31 -> 0 <= y < 2 ^ 31 -> 0 <= Z.lxor x y < 2 ^ 31.
Proof.
  intros Hx Hy. apply lt_pow2_land in Hx, Hy; try lia. apply lt_pow2_land; [lia|].
  apply Z.bits_inj'. intros i Hi. 
  rewrite <- Hx at 2. rewrite <- Hy at 2. rewrite !Z.land_spec, !Z.lxor_spec, !Z.land_spec.
  destruct (Z.testbit x i), (Z.testbit y i), (Z.testbit (Z.ones 31) i); reflexivity.
Qed.

Section FrOps3.
Variables (q : Z) (P : zq).
Hypothesis OK : zq_ok q P.
Hypothesis Q32 : 2 ^ 32 < q.
Notation n := (p_n64 P).
Notation R := (Rad n).
Notation at_ := (holds q n).
Notation bits := (p_bits P).
Notation "m |= p ~> v" := (elt q n m p v) (at level 70, p at level 60).

Local Ltac facts := pose proof (zk_gt1 _ _ OK); pose proof (zk_n _ _ OK); pose proof B_gt1.
Ltac notin := let H := fresh in cbn; intuition (subst; try discriminate; auto; try congruence).
Ltac inS := let p := fresh "p" in intros p; cbn; intuition (subst; auto; right; cbn; lia).
Ltac at2 C := eapply at_chg; [exact C|notin|].

Lemma bits_eq : bits = bitlen q.
Proof.
  pose proof (zk_bits _ _ OK) as Hb. facts. pose proof (zk_bits_range _ _ OK). unfold bitlen.
  assert (Z.log2 q = bits - 1); [|lia]. apply Z.log2_unique; [lia|]. replace (Z.succ (bits - 1)) with bits by lia. lia.
Qed.

Theorem Fr_band_spec r a b m x y : typed n m -> usr r -> usr a -> usr b -> bit_alias_ok r a b m ->
  m |= a ~> x -> m |= b ~> y ->
  yields q n r m (Fr_band P r a b m) ((Z.land x y mod 2 ^ bitlen q) mod q).
Proof. intros. rewrite <- bits_eq. apply Fr_bit_spec; auto; [apply rawAnd_spec; auto|apply Z.land_comm|apply land_int31]. Qed.
Theorem Fr_bor_spec r a b m x y : typed n m -> usr r -> usr a -> usr b -> bit_alias_ok r a b m ->
  m |= a ~> x -> m |= b ~> y ->
  yields q n r m (Fr_bor P r a b m) ((Z.lor x y mod 2 ^ bitlen q) mod q).
Proof. intros. rewrite <- bits_eq. apply Fr_bit_spec; auto; [apply rawOr_spec; auto|apply Z.lor_comm|apply lor_int31]. Qed.
Theorem Fr_bxor_spec r a b m x y : typed n m -> usr r -> usr a -> usr b -> bit_alias_ok r a b m ->
  m |= a ~> x -> m |= b ~> y ->
  yields q n r m (Fr_bxor P r a b m) ((Z.lxor x y mod 2 ^ bitlen q) mod q).
Proof. intros. rewrite <- bits_eq. apply Fr_bit_spec; auto; [apply rawXor_spec; auto|apply Z.lxor_comm|apply lxor_int31]. Qed.

Theorem Fr_bnot_spec r a m x : typed n m -> usr r -> usr a -> (r = a -> mt m a = LONG) ->
  m |= a ~> x ->
  yields q n r m (Fr_bnot P r a m) ((Z.lnot x mod 2 ^ bitlen q) mod q).
Proof.
  rewrite <- bits_eq.
  intros Ht Hur Hua Hra Ha. unfold Fr_bnot.
  destruct (usr01 a Hua) as (A0 & _). destruct (usr01 r Hur) as (R0 & _).
  set (m1 := setT r LONG m).
  assert (C1 : chgs [r] m m1) by apply chgs_setT.
  assert (Ht1 : typed n m1) by exact Ht.
  assert (Er : mt m1 r = LONG) by apply upd_eq.
  assert (Ha1 : m1 |= a ~> x) by (apply elt_setT_long; auto).
  destruct (Z.eqb_spec (mt m1 a) LONG) as [E|E].
  - rewrite E. change (isMont LONG) with false. cbv iota.
    pose proof (elt_long _ _ _ _ _ Ha1 E) as HL.
    destruct (rawNot_spec q P OK r a (ml m1) (at_ok _ _ _ _ _ HL)) as [H1 H2].
    rewrite (at_ev _ _ _ _ _ HL) in H1.
    split; [|split].
    + eapply typed_holds; [exact Ht1|exact H2|exact H1].
    + apply elt_long_intro; cbn [mt ml onL]; auto.
    + eapply chgs_frame; [eapply chgs_trans; [exact C1|apply chgs_onL; exact H2]|inS].
  - unfold sq. destruct (toLongNormal_spec q P OK Q32 (T 0) a m1 x Ht1 Ha1) as (C2 & _ & Ht2 & _ & HL).
    set (m2 := Fr_toLongNormal P (T 0) a m1) in *.
    destruct (rawNot_spec q P OK r (T 0) (ml m2) (at_ok _ _ _ _ _ HL)) as [H1 H2].
    rewrite (at_ev _ _ _ _ _ HL) in H1.
    split; [|split].
    + eapply typed_holds; [exact Ht2|exact H2|exact H1].
    + apply elt_long_intro; cbn [mt ml onL]; auto. destruct (C2 r) as (_ & -> & _); [notin|auto].
    + eapply chgs_frame; [eapply chgs_trans; [exact C1|eapply chgs_trans; [exact C2|apply chgs_onL; exact H2]]|inS].
Qed.

(** ** Shifts *)
Lemma bits_pos : 32 < bits.
Proof.
  pose proof (zk_bits _ _ OK) as Hb.
  destruct (Z.lt_ge_cases 32 bits) as [|Hlt]; [lia|]. exfalso.
  pose proof (Z.pow_le_mono_r 2 bits 32 ltac:(lia) Hlt). lia.
Qed.

(** q - 2^31 exceeds any meaningful shift *)
Lemma bits_small : 2 ^ 31 + bits <= q.
Proof.
  pose proof (zk_bits _ _ OK) as [Hb _]. pose proof bits_pos.
  assert (H1 : forall k, 0 <= k -> 2 ^ 31 + (k + 33) <= 2 ^ (k + 32)).
  { apply natlike_ind; [vm_compute; discriminate|]. intros k Hk IH.
    replace (Z.succ k + 32) with (Z.succ (k + 32)) by lia. rewrite Z.pow_succ_r by lia. lia. }
  specialize (H1 (bits - 33) ltac:(lia)). replace (bits - 33 + 32) with (bits - 1) in H1 by ring.
  lia.
Qed.

Lemma srawShl_spec r a s m x : at_ m a x -> length (m r) = n -> 0 <= s < bits -> (r <> a \/ s < 64) ->
  at_ (srawShl P r a s m) r (shl_val q x s) /\ only r m (srawShl P r a s m).
Proof.
  intros Ha Hl Hs Hal. unfold srawShl, shl_val. rewrite <- bits_eq. pose proof (zk_bits _ _ OK) as ZB. pose proof (zk_bits_range _ _ OK) as ZR.
  destruct (Z.eqb_spec s 0) as [->|Hn].
  - destruct (rawCopy_spec r a m) as [H1 H2]. split; auto. destruct Ha as (A1 & A2 & A3).
    unfold holds. rewrite H1, Z.pow_0_r, Z.mul_1_r, (Z.mod_small x (2 ^ bits)), Z.mod_small by lia. auto.
  - destruct (Z.leb_spec bits s) as [Hc|Hc]; [lia|].
    destruct (rawShl_spec q P OK r a s m (at_ok _ _ _ _ _ Ha) Hl ltac:(lia) Hal) as [H1 H2].
    rewrite (at_ev _ _ _ _ _ Ha) in H1. auto.
Qed.
Lemma srawShr_spec r a s m x : at_ m a x -> length (m r) = n -> 0 <= s < bits ->
  at_ (srawShr P r a s m) r (shr_val x s) /\ only r m (srawShr P r a s m).
Proof.
  intros Ha Hl Hs. unfold srawShr, shr_val. pose proof (zk_bits _ _ OK) as ZB. pose proof (zk_bits_range _ _ OK) as ZR.
  destruct (Z.eqb_spec s 0) as [->|Hn].
  - destruct (rawCopy_spec r a m) as [H1 H2]. split; auto. destruct Ha as (A1 & A2 & A3).
    unfold holds. rewrite H1, Z.pow_0_r, Z.div_1_r. auto.
  - destruct (Z.leb_spec bits s) as [Hc|Hc]; [lia|].
    destruct (rawShr_spec q P OK r a s m (at_ok _ _ _ _ _ Ha) Hl ltac:(lia)) as (H1 & H2 & H3).
    rewrite (at_ev _ _ _ _ _ Ha) in H2. destruct Ha as (_ & _ & Hx).
    split; auto. split; auto. split; auto.
    pose proof (Z.pow_pos_nonneg 2 s ltac:(lia) ltac:(lia)).
    split; [apply Z.div_pos; lia|]. apply Z.le_lt_trans with x; [|lia].
    apply Z.div_le_upper_bound; nia.
Qed.

Lemma setzero_spec r m : typed n m -> yields q n r m (setzero r m) 0.
Proof.
  intros Ht. unfold setzero, sq. split; [exact Ht|]. split.
  - apply elt_short_intro; auto; cbn [ms mt ml setS setT]; rewrite ?upd_eq; auto.
    unfold is_int32; lia.
  - intros p Hu Hp. repeat split; cbn [ms mt ml setT setS onL]; rewrite ?upd_neq by auto; auto.
Qed.

(** shifting a long-normal source *)
Lemma shln_fin S r a' s m m2 x : chgs S m m2 -> (forall p, In p S -> p = r \/ ~ usr p) ->
  typed n m2 -> at_ (ml m2) a' x -> 0 <= s < bits -> (r <> a' \/ s < 64) ->
  yields q n r m (do_shlln P r a' s m2) (shl_val q x s).
Proof.
  intros C HS Ht Ha Hs Hal. unfold do_shlln, sq.
  destruct (srawShl_spec r a' s (ml m2) x Ha (proj1 (Ht r)) Hs Hal) as [H1 H2].
  split; [|split].
  - eapply typed_holds; [exact Ht|exact H2|exact H1].
  - apply elt_long_intro; cbn [mt ml onL setT]; auto. apply upd_eq.
  - eapply chgs_frame; [eapply chgs_trans; [exact C|eapply chgs_trans; [apply chgs_setT|apply (chgs_onL r); exact H2]]|].
    intros p. rewrite !in_app_iff. cbn. intuition auto.
Qed.
Lemma shrn_fin S r a' s m m2 x : chgs S m m2 -> (forall p, In p S -> p = r \/ ~ usr p) ->
  typed n m2 -> at_ (ml m2) a' x -> 0 <= s < bits ->
  yields q n r m (do_shrln P r a' s m2) (shr_val x s).
Proof.
  intros C HS Ht Ha Hs. unfold do_shrln, sq.
  destruct (srawShr_spec r a' s (ml m2) x Ha (proj1 (Ht r)) Hs) as [H1 H2].
  split; [|split].
  - eapply typed_holds; [exact Ht|exact H2|exact H1].
  - apply elt_long_intro; cbn [mt ml onL setT]; auto. apply upd_eq.
  - eapply chgs_frame; [eapply chgs_trans; [exact C|eapply chgs_trans; [apply chgs_setT|apply (chgs_onL r); exact H2]]|].
    intros p. rewrite !in_app_iff. cbn. intuition auto.
Qed.

Lemma do_shlcl_spec r a s m x : typed n m -> usr r -> usr a -> m |= a ~> x -> 0 <= s < bits ->
  yields q n r m (do_shlcl P r a s m) (shl_val q x s).
Proof.
  intros Ht Hur Hua Ha Hs. unfold do_shlcl.
  destruct (toLongNormal_spec q P OK Q32 (T 0) a m x Ht Ha) as (C2 & _ & Ht2 & _ & HL).
  change ((Fr_toLongNormal P (T 0) a >>> setT r LONG >>> onL (srawShl P r (T 0) s)) m)
    with (do_shlln P r (T 0) s (Fr_toLongNormal P (T 0) a m)).
  destruct (usr01 r Hur) as (R0 & _).
  eapply shln_fin; [exact C2|inS|auto|auto|auto|auto].
Qed.

Lemma do_shl_spec r a s m x : typed n m -> usr r -> usr a -> m |= a ~> x -> 0 <= s < bits ->
  shl_alias_ok r a s m ->
  yields q n r m (do_shl P r a s m) (shl_val q x s).
Proof.
  intros Ht Hur Hua Ha Hs Hal. unfold do_shl.
  destruct (usr01 r Hur) as (R0 & _).
  destruct (isLong (mt m a)) eqn:Ea.
  - destruct (long_cases _ _ _ _ _ Ha Ea) as [[E1 E1']|[E1 E1']]; rewrite E1'.
    + change (LONGMONTGOMERY =? LONGMONTGOMERY) with true. cbv iota. unfold sq.
      destruct (toNormal_spec q P OK (T 0) a m x Ht Ha) as (C2 & _ & Ht2 & _ & L2 & _).
      eapply shln_fin; [exact C2|inS|auto|auto|auto|auto].
    + change (LONG =? LONGMONTGOMERY) with false. cbv iota.
      eapply shln_fin; [apply (chgs_refl [])|inS|auto|apply elt_long; eauto|auto|].
      destruct (ptr_dec r a) as [E|E]; auto.
  - destruct (elt_short _ _ _ _ _ Ha Ea) as [S1 V1].
    destruct (Z.eqb_spec (ms m a) 0) as [E0|E0].
    { replace (shl_val q x s) with 0; [apply setzero_spec; auto|].
      rewrite V1, E0. unfold shl_val. pose proof bits_pos.
      rewrite !Zmod_0_l. reflexivity. }
    destruct (Z.ltb_spec (ms m a) 0); [apply do_shlcl_spec; auto|].
    destruct (Z.leb_spec 31 s); [apply do_shlcl_spec; auto|].
    destruct (Z.eqb_spec (Z.shiftr (ms m a * 2 ^ s) 31) 0) as [Ev|Ev]; cbn [negb]; [|apply do_shlcl_spec; auto].
    unfold is_int32 in S1. pose proof (Z.pow_pos_nonneg 2 s ltac:(lia) ltac:(lia)).
    rewrite Z.shiftr_div_pow2 in Ev by lia.
    assert (Hv : 0 <= ms m a * 2 ^ s < 2 ^ 31).
    { split; [nia|]. apply Z.div_small_iff in Ev; lia. }
    set (v := ms m a * 2 ^ s) in *.
    replace (shl_val q x s) with v.
    + rewrite to_int32_id by (unfold is_int32; lia).
      change ((setT r SHORT >>> setS r v) m) with (set_short r v m).
      apply set_short_spec; auto; [unfold is_int32|]; lia.
    + unfold shl_val. rewrite <- bits_eq. rewrite V1, (Z.mod_small (ms m a) q) by lia. fold v.
      assert (2 ^ 31 <= 2 ^ bits) by (apply Z.pow_le_mono_r; pose proof bits_pos; lia).
      rewrite (Z.mod_small v (2 ^ bits)), Z.mod_small by lia. reflexivity.
Qed.

Lemma do_shrl_spec S r a s m m0 x : chgs S m0 m -> (forall p, In p S -> p = r \/ ~ usr p) ->
  typed n m -> usr r -> m |= a ~> x -> isLong (mt m a) = true -> 0 <= s < bits ->
  yields q n r m0 (do_shrl P r a s m) (shr_val x s).
Proof.
  intros C HS Ht Hur Ha Ea Hs. unfold do_shrl.
  destruct (long_cases _ _ _ _ _ Ha Ea) as [[E1 E1']|[E1 E1']]; rewrite E1'.
  - change (LONGMONTGOMERY =? LONGMONTGOMERY) with true. cbv iota. unfold sq.
    destruct (toNormal_spec q P OK (T 1) a m x Ht Ha) as (C2 & _ & Ht2 & _ & L2 & _).
    eapply shrn_fin; [exact (chgs_trans _ _ _ _ _ C C2)| |auto|auto|auto].
    intros p. rewrite in_app_iff. cbn. intuition (subst; auto). right; cbn; lia.
  - change (LONG =? LONGMONTGOMERY) with false. cbv iota.
    eapply shrn_fin; [exact C|auto|auto|apply elt_long; eauto|auto].
Qed.

Lemma do_shr_spec r a s m x : typed n m -> usr r -> usr a -> m |= a ~> x -> 0 <= s < bits ->
  yields q n r m (do_shr P r a s m) (shr_val x s).
Proof.
  intros Ht Hur Hua Ha Hs. unfold do_shr.
  destruct (isLong (mt m a)) eqn:Ea.
  - eapply do_shrl_spec; [apply (chgs_refl [])|inS|auto|auto|auto|auto|auto].
  - destruct (elt_short _ _ _ _ _ Ha Ea) as [S1 V1]. unfold is_int32 in S1.
    pose proof (Z.pow_pos_nonneg 2 s ltac:(lia) ltac:(lia)).
    destruct (Z.eqb_spec (ms m a) 0) as [E0|E0].
    { replace (shr_val x s) with 0; [apply setzero_spec; auto|].
      rewrite V1, E0. unfold shr_val. rewrite Z.mod_0_l, Z.div_0_l; lia. }
    destruct (Z.ltb_spec (ms m a) 0).
    { unfold sq. destruct (toLongNormal_spec q P OK Q32 (T 0) a m x Ht Ha) as (C2 & H2 & Ht2 & E2 & HL).
      eapply do_shrl_spec; [exact C2|inS|auto|auto|auto|rewrite E2; reflexivity|auto]. }
    assert (Hx : x = ms m a) by (rewrite V1; apply Z.mod_small; lia). rewrite Hx.
    unfold shr_val. destruct (Z.leb_spec 31 s).
    + rewrite Z.div_small; [apply setzero_spec; auto|].
      pose proof (Z.pow_le_mono_r 2 31 s ltac:(lia) ltac:(lia)). lia.
    + rewrite Z.shiftr_div_pow2 by lia.
      assert (Hv : 0 <= ms m a / 2 ^ s < 2 ^ 31).
      { split; [apply Z.div_pos; lia|]. apply Z.div_lt_upper_bound; nia. }
      rewrite to_int32_id by (unfold is_int32; lia).
      apply (set_short_spec q P OK Q32 r (ms m a / 2 ^ s) m); auto; [unfold is_int32|]; lia.
Qed.

Hypothesis Qbits : bits < B.

Section Shift.
Variables (fwd bwd : ptr -> ptr -> Z -> mem -> mem) (fval bval : Z -> Z -> Z).
Variables (fok bok : ptr -> ptr -> Z -> mem -> Prop).
Hypothesis fwd_spec : forall r a s m x, typed n m -> usr r -> usr a -> m |= a ~> x -> 0 <= s < bits ->
  fok r a s m -> yields q n r m (fwd r a s m) (fval x s).
Hypothesis bwd_spec : forall r a s m x, typed n m -> usr r -> usr a -> m |= a ~> x -> 0 <= s < bits ->
  bok r a s m -> yields q n r m (bwd r a s m) (bval x s).
Hypothesis fok_same : forall r a s m m', same_at a m m' -> fok r a s m -> fok r a s m'.
Hypothesis bok_same : forall r a s m m', same_at a m m' -> bok r a s m -> bok r a s m'.

Lemma max_shift_eval : eval (max_shift P) = bits.
Proof. unfold max_shift. cbn [eval]. rewrite eval_repeat0. lia. Qed.

Lemma get0 m p v : at_ m p v -> 0 <= v < bits -> get (m p) 0 = v.
Proof.
  intros (H1 & H2 & _) Hv. facts. rewrite (get_eval n) by (auto; lia). rewrite H2.
  change (B ^ Z.of_nat 0) with 1. rewrite Z.div_1_r. apply Z.mod_small. lia.
Qed.

Lemma yields_pre S r m0 m m' v : chgs S m0 m -> (forall p, In p S -> p = r \/ ~ usr p) ->
  yields q n r m m' v -> yields q n r m0 m' v.
Proof.
  intros C HS (H1 & H2 & H3). split; [auto|]. split; [auto|]. intros p Hu Hp.
  destruct (H3 p Hu Hp) as (E1 & E2 & E3). destruct (C p) as (F1 & F2 & F3).
  { intros Hi. destruct (HS p Hi); auto. }
  unfold same_at. rewrite E1, E2, E3. auto.
Qed.

Lemma shift_long_spec r a b m x y : typed n m -> usr r -> usr a -> m |= a ~> x -> at_ (ml m) b y ->
  (y < bits -> fok r a y m) -> (q - y < bits -> bok r a (q - y) m) ->
  yields q n r m (shift_long P fwd bwd r a b m) (shift_val q fval bval x y).
Proof.
  intros Ht Hur Hua Ha Hb Hf Hbk. unfold shift_long, shift_val. rewrite <- bits_eq.
  pose proof Hb as (Hb1 & Hb2 & Hb3).
  rewrite mpn_cmp_ge, max_shift_eval, Hb2. rewrite Z.ltb_antisym.
  destruct (Z.leb_spec bits y); cbn [negb].
  - unfold big_shift. set (m1 := onL (rawSubRegular_q P (T 3) b) m).
    pose proof bits_pos.
    assert (Ho : only (T 3) (ml m) (ml m1)) by apply only_upd.
    assert (C : chgs [T 3] m m1) by (apply chgs_onL; apply only_upd).
    assert (HT : at_ (ml m1) (T 3) (q - y)).
    { unfold m1, onL, rawSubRegular_q, mpn_sub_n; cbn [ml fst]. unfold holds. rewrite upd_eq.
      rewrite Hb2, (q_eval q P OK). destruct (small_ok q P OK (q - y) ltac:(lia)) as [S1 S2].
      split; [auto|]. split; [auto|]. lia. }
    assert (Ht1 : typed n m1) by (eapply typed_holds; eauto).
    destruct (usr01 a Hua) as (_ & _ & _ & A3).
    assert (Sa : same_at a m m1) by (apply C; notin).
    assert (Ha1 : m1 |= a ~> x) by (eapply elt_same; eauto).
    rewrite mpn_cmp_ge, max_shift_eval, (at_ev _ _ _ _ _ HT). rewrite Z.ltb_antisym.
    destruct (Z.leb_spec bits (q - y)); cbn [negb].
    + eapply yields_pre; [exact C|inS|apply setzero_spec; auto].
    + eapply yields_pre; [exact C|inS|]. rewrite (get0 _ _ _ HT) by lia.
      apply bwd_spec; auto. lia. eapply bok_same; eauto.
  - rewrite (get0 _ _ _ Hb) by lia. apply fwd_spec; auto. lia.
Qed.

Theorem shift_spec r a b m x y : typed n m -> usr r -> usr a -> usr b -> m |= a ~> x -> m |= b ~> y ->
  (y < bits -> fok r a y m) -> (q - y < bits -> bok r a (q - y) m) ->
  yields q n r m (shift P fwd bwd r a b m) (shift_val q fval bval x y).
Proof.
  intros Ht Hur Hua Hub Ha Hb Hf Hbk. unfold shift.
  destruct (isLong (mt m b)) eqn:Eb.
  - destruct (long_cases _ _ _ _ _ Hb Eb) as [[E1 E1']|[E1 E1']]; rewrite E1'.
    + change (LONGMONTGOMERY =? LONGMONTGOMERY) with true. cbv iota. unfold sq.
      destruct (toNormal_spec q P OK (T 2) b m y Ht Hb) as (C2 & _ & Ht2 & _ & L2 & _).
      destruct (usr01 a Hua) as (_ & _ & A2 & _).
      assert (Sa : same_at a m (Fr_toNormal P (T 2) b m)) by (apply C2; notin).
      eapply yields_pre; [exact C2|inS|].
      apply shift_long_spec; auto.
      * eapply elt_same; eauto.
      * intros; eapply fok_same; eauto.
      * intros; eapply bok_same; eauto.
    + change (LONG =? LONGMONTGOMERY) with false. cbv iota.
      apply shift_long_spec; auto. apply elt_long; auto.
  - destruct (elt_short _ _ _ _ _ Hb Eb) as [S1 V1]. unfold is_int32 in S1.
    pose proof bits_small. pose proof bits_pos. unfold shift_val. rewrite <- bits_eq.
    destruct (Z.ltb_spec (ms m b) 0).
    + assert (Ey : y = ms m b + q).
      { rewrite V1. rewrite <- (Z.mod_add _ 1 q) by lia. rewrite Z.mod_small; lia. }
      replace (y <? bits) with false by lia. replace (q - y) with (- ms m b) in * by lia.
      rewrite Z.ltb_antisym. destruct (Z.leb_spec bits (- ms m b)); cbn [negb].
      * apply setzero_spec; auto.
      * apply bwd_spec; auto. lia.
    + assert (Ey : y = ms m b) by (rewrite V1; apply Z.mod_small; lia).
      rewrite Z.ltb_antisym, Ey in *. destruct (Z.leb_spec bits (ms m b)); cbn [negb].
      * replace (q - ms m b <? bits) with false by lia. apply setzero_spec; auto.
      * apply fwd_spec; auto; lia.
Qed.
End Shift.

Lemma shl_same r a s m m' : same_at a m m' -> shl_alias_ok r a s m -> shl_alias_ok r a s m'.
Proof. unfold shl_alias_ok. intros (_ & -> & _). auto. Qed.

Theorem Fr_shl_spec r a b m x y : typed n m -> usr r -> usr a -> usr b -> m |= a ~> x -> m |= b ~> y ->
  (y < bits -> shl_alias_ok r a y m) ->
  yields q n r m (Fr_shl P r a b m) (shift_val q (shl_val q) shr_val x y).
Proof.
  intros. unfold Fr_shl. apply (shift_spec _ _ _ _ shl_alias_ok (fun _ _ _ _ => True)); auto.
  - intros; apply do_shl_spec; auto.
  - intros; apply do_shr_spec; auto.
  - intros; eapply shl_same; eauto.
Qed.
Theorem Fr_shr_spec r a b m x y : typed n m -> usr r -> usr a -> usr b -> m |= a ~> x -> m |= b ~> y ->
  (q - y < bits -> shl_alias_ok r a (q - y) m) ->
  yields q n r m (Fr_shr P r a b m) (shift_val q shr_val (shl_val q) x y).
Proof.
  intros. unfold Fr_shr. apply (shift_spec _ _ _ _ (fun _ _ _ _ => True) shl_alias_ok); auto.
  - intros; apply do_shr_spec; auto.
  - intros; apply do_shl_spec; auto.
  - intros; eapply shl_same; eauto.
Qed.

(** ** toInt *)
Lemma get0_mod m p v : at_ m p v -> get (m p) 0 = v mod B.
Proof.
  intros (H1 & H2 & _). facts. rewrite (get_eval n) by (auto; lia). rewrite H2.
  change (B ^ Z.of_nat 0) with 1. rewrite Z.div_1_r. reflexivity.
Qed.

Lemma to_int64_val z v : z mod B = v mod B -> - 2 ^ 63 <= v < 2 ^ 63 -> to_int64 z = v.
Proof.
  intros E Hv. unfold to_int64. change (2 ^ 64) with B.
  replace ((z + 2 ^ 63) mod B) with ((v + 2 ^ 63) mod B) by (apply cg_add; auto).
  rewrite Z.mod_small; [lia|]. change B with (2 ^ 64). lia.
Qed.

Lemma tl_zero l k : limbs_ok (S k) l -> forallb (fun x => x =? 0) (tl l) = (eval l <? B).
Proof.
  intros Hl. destruct l as [|w l]; [destruct Hl; discriminate|]. cbn [tl eval].
  apply limbs_ok_inv in Hl. destruct Hl as [Hw Hl].
  assert (E : forallb (fun x => x =? 0) l = (eval l =? 0)).
  { clear Hw w. revert k Hl. induction l as [|u l IH]; intros k Hl; [reflexivity|].
    destruct k as [|k]; [destruct Hl; discriminate|]. apply limbs_ok_inv in Hl. destruct Hl as [Hu Hl].
    cbn [forallb eval]. rewrite (IH k Hl). pose proof (eval_bound _ _ Hl). pose proof B_gt1.
    destruct (Z.eqb_spec u 0), (Z.eqb_spec (eval l) 0), (Z.eqb_spec (u + B * eval l) 0); auto; nia. }
  rewrite E. pose proof (eval_bound _ _ Hl). pose proof B_gt1.
  destruct (Z.eqb_spec (eval l) 0), (Z.ltb_spec (w + B * eval l) B); auto; nia.
Qed.

Lemma longNormal_spec p m v : at_ (ml m) p v ->
  Fr_longNormal P p m =
    if v <? 2 ^ 31 then Some v
    else let d := to_int64 (v - q) in
         if (- 2 ^ 31 <=? d) && (d <? 0) then Some d else None.
Proof.
  intros Hp. facts. unfold Fr_longNormal. rewrite (get0_mod _ _ _ Hp).
  pose proof Hp as (Hp1 & Hp2 & Hp3).
  assert (En : n = S (n - 1)) by lia.
  rewrite (tl_zero _ (n - 1)) by (rewrite <- En; auto). rewrite Hp2.
  assert (HN : Fr_longNeg P p m = let d := to_int64 (v - q) in
         if (- 2 ^ 31 <=? d) && (d <? 0) then Some d else None).
  { unfold Fr_longNeg. rewrite mpn_cmp_ge, Hp2, (q_eval q P OK).
    destruct (Z.leb_spec q v); [lia|]. rewrite (get0_mod _ _ _ Hp).
    assert (Eq : get (p_q P) 0 = q mod B).
    { rewrite (get_eval n) by (eauto using q_ok; lia). rewrite (q_eval q P OK).
      change (B ^ Z.of_nat 0) with 1. rewrite Z.div_1_r. reflexivity. }
    rewrite Eq.
    replace (to_int64 (v mod B - q mod B)) with (to_int64 (v - q)).
    2:{ unfold to_int64. change (2 ^ 64) with B. f_equal. modring. }
    cbv zeta. set (d := to_int64 (v - q)).
    assert (Hd : - 2 ^ 63 <= d < 2 ^ 63).
    { unfold d, to_int64. pose proof (Z.mod_pos_bound (v - q + 2 ^ 63) (2 ^ 64) ltac:(lia)). lia. }
    rewrite Z.shiftr_div_pow2 by lia.
    pose proof (Z.div_mod d (2 ^ 31) ltac:(lia)). pose proof (Z.mod_pos_bound d (2 ^ 31) ltac:(lia)).
    destruct (Z.eqb_spec (d / 2 ^ 31 + 1) 0) as [E|E]; cbn [negb].
    - assert (- 2 ^ 31 <= d < 0) by lia.
      replace ((- 2 ^ 31 <=? d) && (d <? 0)) with true by lia.
      rewrite to_int32_id; auto. unfold is_int32; lia.
    - replace ((- 2 ^ 31 <=? d) && (d <? 0)) with false; auto.
      destruct (Z.leb_spec (- 2 ^ 31) d), (Z.ltb_spec d 0); auto. exfalso. apply E.
      replace (d / 2 ^ 31) with (-1); [lia|]. apply Z.div_unique with (d + 2 ^ 31); lia. }
  rewrite HN. pose proof (Z.mod_pos_bound v B ltac:(lia)).
  rewrite Z.shiftr_div_pow2 by lia.
  pose proof B32.
  destruct (Z.ltb_spec v (2 ^ 31)).
  - rewrite (Z.mod_small v B) by lia. rewrite Z.div_small by lia. cbn [Z.eqb negb].
    destruct (Z.ltb_spec v B); [|lia]. cbn [negb]. rewrite to_int32_id; auto. unfold is_int32; lia.
  - destruct (Z.eqb_spec (v mod B / 2 ^ 31) 0) as [E|E]; cbn [negb]; auto.
    destruct (Z.ltb_spec v B); cbn [negb]; auto.
    exfalso. rewrite (Z.mod_small v B) in E by lia. apply Z.div_small_iff in E; lia.
Qed.

Theorem Fr_toInt_spec a m x : typed n m -> usr a -> m |= a ~> x ->
  Fr_toInt P a m =
    if isLong (mt m a) then
      if x <? 2 ^ 31 then Some x
      else let d := to_int64 (x - q) in
           if (- 2 ^ 31 <=? d) && (d <? 0) then Some d else None
    else Some (signed q x).
Proof.
  intros Ht Hua Ha. unfold Fr_toInt. destruct (isLong (mt m a)) eqn:Ea.
  - destruct (long_cases _ _ _ _ _ Ha Ea) as [[E1 E1']|[E1 E1']]; rewrite E1.
    + destruct (toNormal_spec q P OK (T 0) a m x Ht Ha) as (C2 & _ & Ht2 & _ & L2 & _).
      apply longNormal_spec; auto.
    + apply longNormal_spec, elt_long; auto.
  - destruct (elt_short _ _ _ _ _ Ha Ea) as [S1 ->]. rewrite signed_short by auto. reflexivity.
Qed.

(** every element that is a 32-bit integer is converted exactly *)
Theorem Fr_toInt_exact a m x v : typed n m -> usr a -> m |= a ~> x ->
  is_int32 v -> x = v mod q -> Fr_toInt P a m = Some v.
Proof.
  intros Ht Hua Ha Hv Ex. rewrite (Fr_toInt_spec a m x) by auto.
  destruct (isLong (mt m a)); [|rewrite Ex, signed_short by auto; reflexivity].
  unfold is_int32 in Hv. destruct (Z.ltb_spec v 0).
  - assert (x = v + q) as ->.
    { rewrite Ex. rewrite <- (Z.mod_add v 1 q) by lia. rewrite Z.mod_small; lia. }
    destruct (Z.ltb_spec (v + q) (2 ^ 31)); [lia|].
    replace (v + q - q) with v by ring.
    rewrite (to_int64_val v v) by (auto; lia).
    cbv zeta. replace ((- 2 ^ 31 <=? v) && (v <? 0)) with true by lia. reflexivity.
  - rewrite Z.mod_small in Ex by lia. subst x. destruct (Z.ltb_spec v (2 ^ 31)); [auto|lia].
Qed.

(** with one limb no other element is accepted *)
Theorem Fr_toInt_sound_one_limb a m x v : n = 1%nat -> typed n m -> usr a -> m |= a ~> x ->
  Fr_toInt P a m = Some v -> is_int32 v /\ x = v mod q.
Proof.
  intros Hn Ht Hua Ha. rewrite (Fr_toInt_spec a m x) by auto.
  pose proof (elt_range _ _ _ _ _ Ha) as Hx. pose proof (q_bound q P OK) as Hq.
  rewrite Hn in Hq. change (B ^ Z.of_nat 1) with (2 ^ 64) in Hq. unfold is_int32.
  destruct (isLong (mt m a)) eqn:Ea.
  - destruct (Z.ltb_spec x (2 ^ 31)).
    + intros [= <-]. split; [lia|]. symmetry; apply Z.mod_small; lia.
    + cbv zeta. set (d := to_int64 (x - q)).
      destruct ((- 2 ^ 31 <=? d) && (d <? 0)) eqn:Ed; [|discriminate]. intros [= <-].
      assert (Hd : - 2 ^ 31 <= d < 0) by lia. split; [lia|].
      assert (d = x - q).
      { unfold d, to_int64 in *. pose proof (Z.div_mod (x - q + 2 ^ 63) (2 ^ 64) ltac:(lia)).
        pose proof (Z.mod_pos_bound (x - q + 2 ^ 63) (2 ^ 64) ltac:(lia)). lia. }
      rewrite H0. rewrite <- (Z.mod_add (x - q) 1 q) by lia. replace (x - q + 1 * q) with x by ring. symmetry; apply Z.mod_small; lia.
  - intros [= <-]. destruct (elt_short _ _ _ _ _ Ha Ea) as [S1 ->]. rewrite signed_short by auto. auto.
Qed.

(** with more limbs a returned integer is only right modulo 2^64 *)
Theorem Fr_toInt_mod64 a m x v : typed n m -> usr a -> m |= a ~> x ->
  Fr_toInt P a m = Some v -> is_int32 v /\ (v mod 2 ^ 64 = x mod 2 ^ 64 \/ v mod 2 ^ 64 = (x - q) mod 2 ^ 64).
Proof.
  intros Ht Hua Ha. rewrite (Fr_toInt_spec a m x) by auto. unfold is_int32.
  pose proof (elt_range _ _ _ _ _ Ha) as Hx.
  destruct (isLong (mt m a)) eqn:Ea.
  - destruct (Z.ltb_spec x (2 ^ 31)).
    + intros [= <-]. split; [lia|auto].
    + cbv zeta. set (d := to_int64 (x - q)).
      destruct ((- 2 ^ 31 <=? d) && (d <? 0)) eqn:Ed; [|discriminate]. intros [= <-].
      split; [lia|]. right. unfold d, to_int64.
      rewrite Zminus_mod_idemp_l. f_equal. ring.
  - intros [= <-]. destruct (elt_short _ _ _ _ _ Ha Ea) as [S1 E]. rewrite E, signed_short by auto. split; auto.
    unfold is_int32 in S1. destruct (Z.ltb_spec (ms m a) 0).
    + right. rewrite <- (Z.mod_add (ms m a) 1 q), (Z.mod_small (ms m a + 1 * q)) by lia. f_equal. ring.
    + left. rewrite (Z.mod_small (ms m a) q) by lia. reflexivity.
Qed.
End FrOps3.
