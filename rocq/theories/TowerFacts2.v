(** The tower, continued: frames of F6Field, and F12Field. *)
From Coq Require Import ZArith List Bool Ring Lia.
From Verif Require Import Bytes BytesFacts Tower TowerAlg TowerFacts.
Import ListNotations.

Section L12.
Variable K : rng.
Notation mem := (mem K).

Definition frame6 (r : loc) (m m' : mem) : Prop := forall c, inside r c = false -> loc2 c = false -> m' c = m c.
Definition frame12 (r : loc) (m m' : mem) : Prop := forall c, inside r c = false -> loc3 c = false -> m' c = m c.
Lemma loc2_1 c : loc2 c = false -> loc1 c = false. Proof. unfold loc2, loc1. destruct (root c); auto. Qed.
Lemma loc3_2 c : loc3 c = false -> loc2 c = false. Proof. unfold loc2, loc3. destruct (root c); auto. Qed.
Lemma loc2_T i c : loc2 c = false -> inside (R (T2 i)) c = false.
Proof. intros H. rewrite inside_root. unfold loc2 in H. destruct (root c); try reflexivity; discriminate. Qed.
Lemma loc3_T i c : loc3 c = false -> inside (R (T3 i)) c = false.
Proof. intros H. rewrite inside_root. unfold loc3 in H. destruct (root c); try reflexivity; discriminate. Qed.
Ltac sd := first [assumption | apply inside_out; assumption | apply loc2_T; assumption | apply loc2_1; assumption].
Ltac frm := intros c H0 H2;
  unfold F6_add, F6_sub, F6_neg, F6_copy, F6_dbl, F6_mul, F6_square, F6_inv, F6_mulTau, F6_mulScalar, F6_mulGFP, F6_Frobenius, F6_FrobeniusP2;
  repeat first [rewrite add2_frame by sd | rewrite sub2_frame by sd | rewrite neg2_frame by sd | rewrite copy2_frame by sd | rewrite dbl2_frame by sd
    | rewrite mul2_frame by sd | rewrite square2_frame by sd | rewrite inv2_frame by sd | rewrite mulXi_frame by sd | rewrite scale2_frame by sd | rewrite conj2_frame by sd];
  reflexivity.
Lemma add6_frame r a b m : frame6 r m (F6_add K r a b m). Proof. frm. Qed.
Lemma sub6_frame r a b m : frame6 r m (F6_sub K r a b m). Proof. frm. Qed.
Lemma neg6_frame r a m : frame6 r m (F6_neg K r a m). Proof. frm. Qed.
Lemma copy6_frame r a m : frame6 r m (F6_copy K r a m). Proof. frm. Qed.
Lemma dbl6_frame r a m : frame6 r m (F6_dbl K r a m). Proof. frm. Qed.
Lemma mul6_frame r a b m : frame6 r m (F6_mul K r a b m). Proof. frm. Qed.
Lemma square6_frame r a m : frame6 r m (F6_square K r a m). Proof. frm. Qed.
Lemma inv6_frame r a m : frame6 r m (F6_inv K r a m). Proof. frm. Qed.
Lemma mulTau_frame r a m : frame6 r m (F6_mulTau K r a m). Proof. frm. Qed.
Lemma mulScalar6_frame r a b m : frame6 r m (F6_mulScalar K r a b m). Proof. frm. Qed.
Lemma mulGFP_frame r a b m : frame6 r m (F6_mulGFP K r a b m). Proof. frm. Qed.
Lemma frob6_frame c1 c2 r a m : frame6 r m (F6_Frobenius K c1 c2 r a m). Proof. frm. Qed.
Lemma frobP26_frame c1 c2 r a m : frame6 r m (F6_FrobeniusP2 K c1 c2 r a m). Proof. frm. Qed.
Lemma div6_frame r a b m : frame6 r m (F6_div K r a b m).
Proof. intros c H0 H2. unfold F6_div. rewrite mul6_frame, inv6_frame by sd. reflexivity. Qed.

(** ** F12 *)
Hypothesis Hnr : nr_type K (neg1 K) = nr_is_negone.
Add Ring E6ring : (r_th (E6 K)).
Add Ring E12ring : (r_th (E12 K)).
(** value of an F12 element: x w + y *)
Definition val12 (m : mem) (p : loc) : E12 K := (val6 m (C 1 p), val6 m (C 0 p)).
Definition tau : E6 K := c_t (E2 K) (xi K).
Lemma tau_eq' r a (m : mem) p : val6 (F6_mulTau K r a m) p = if leqb p r then @rmul (E6 K) tau (val6 m a) else val6 m p.
Proof. exact (mulTau_eq K r a m p). Qed.
Ltac st := repeat (first [rewrite add6_eq | rewrite sub6_eq | rewrite neg6_eq | rewrite dbl6_eq | rewrite mul6_eq | rewrite inv6_eq by assumption | rewrite square6_eq by assumption
   | rewrite copy6_eq | rewrite tau_eq']; dec).
Ltac fin12 := cases; cbn [fst snd]; try (apply pair_eq); try reflexivity; try ring.
Lemma add12_eq r a b (m : mem) p : val12 (F12_add K r a b m) p = if leqb p r then @radd (E12 K) (val12 m a) (val12 m b) else val12 m p.
Proof. change (@radd (E12 K)) with (q_add (E6 K)). unfold F12_add, val12, q_add. st. fin12. Qed.
Lemma sub12_eq r a b (m : mem) p : val12 (F12_sub K r a b m) p = if leqb p r then @rsub (E12 K) (val12 m a) (val12 m b) else val12 m p.
Proof. change (@rsub (E12 K)) with (q_sub (E6 K)). unfold F12_sub, val12, q_sub. st. fin12. Qed.
Lemma neg12_eq r a (m : mem) p : val12 (F12_neg K r a m) p = if leqb p r then @ropp (E12 K) (val12 m a) else val12 m p.
Proof. change (@ropp (E12 K)) with (q_opp (E6 K)). unfold F12_neg, val12, q_opp. st. fin12. Qed.
Lemma conj12_eq r a (m : mem) p : val12 (F12_conjugate K r a m) p = if leqb p r then q_conj (val12 m a) else val12 m p.
Proof. unfold F12_conjugate, val12, q_conj. st. fin12. Qed.
Lemma copy12_eq r a (m : mem) p : val12 (F12_copy K r a m) p = if leqb p r then val12 m a else val12 m p.
Proof. unfold F12_copy, val12. st. fin12. Qed.
Lemma mul12_eq r a b (m : mem) p : val12 (F12_mul K r a b m) p = if leqb p r then @rmul (E12 K) (val12 m a) (val12 m b) else val12 m p.
Proof. change (@rmul (E12 K)) with (q_mul (E6 K) tau). unfold F12_mul, val12, q_mul. st. fin12. Qed.
Lemma square12_eq r a (m : mem) p : val12 (F12_square K r a m) p = if leqb p r then @rmul (E12 K) (val12 m a) (val12 m a) else val12 m p.
Proof. change (@rmul (E12 K)) with (q_mul (E6 K) tau). unfold F12_square, val12, q_mul. st. fin12. Qed.
(** multiplication by an element of F6; b may not be the x component of r *)
Lemma mulScalar12_eq r a b (m : mem) p : b <> C 0 r ->
  val12 (F12_mulScalar K r a b m) p = if leqb p r then @rmul (E12 K) (val12 m a) (val6 m b, @r0 (E6 K)) else val12 m p.
Proof.
  intros N. change (@rmul (E12 K)) with (q_mul (E6 K) tau). unfold F12_mulScalar, val12, q_mul. st. rewrite (leqb_neq _ _ N). fin12.
Qed.
Lemma inv12_eq r a (m : mem) p : val12 (F12_inv K r a m) p = if leqb p r then @rinv (E12 K) (val12 m a) else val12 m p.
Proof.
  change (@rinv (E12 K)) with (q_inv (E6 K) tau). unfold F12_inv, F12_mulScalar, val12, q_inv. st.
  destruct (leqb_spec p r) as [->|Np]; rewrite ?leqb_refl; [|reflexivity]. cbn [fst snd].
  unfold q_norm. cbn [fst snd]. cases; set (d := @rinv (E6 K) _); clearbody d; apply pair_eq; ring.
Qed.
Lemma div12_eq r a b (m : mem) p : p <> R (T3 8) -> a <> R (T3 8) ->
  val12 (F12_div K r a b m) p = if leqb p r then @rmul (E12 K) (val12 m a) (@rinv (E12 K) (val12 m b)) else val12 m p.
Proof.
  intros Hp Ha. unfold F12_div. rewrite mul12_eq, !inv12_eq, leqb_refl, (leqb_neq p _ Hp), (leqb_neq a _ Ha). reflexivity.
Qed.
Lemma eq12_ok a b (m : mem) : F12_eq K a b m = true <-> val12 m a = val12 m b.
Proof.
  unfold F12_eq. rewrite andb_comm. exact (q_eqb_ok (E6 K) (val12 m a) (val12 m b)).
Qed.
Lemma isZero12_ok a (m : mem) : F12_isZero K a m = true <-> val12 m a = @r0 (E12 K).
Proof. unfold F12_isZero. rewrite andb_comm. exact (q_eqb_ok (E6 K) (val12 m a) (@r0 (E12 K))). Qed.
Lemma isOne12_ok a (m : mem) : F12_isOne K a m = true <-> val12 m a = @r1 (E12 K).
Proof. unfold F12_isOne. rewrite andb_comm. exact (q_eqb_ok (E6 K) (val12 m a) (@r1 (E12 K))). Qed.
Ltac sd3 := first [assumption | apply inside_out; assumption | apply loc3_T; assumption | apply inside_out, loc3_T; assumption | apply loc3_2; assumption].
Ltac frm3 := intros c H0 H2;
  unfold F12_add, F12_sub, F12_neg, F12_copy, F12_conjugate, F12_mul, F12_square, F12_inv, F12_mulScalar, F12_Frobenius, F12_FrobeniusP2;
  repeat first [rewrite add6_frame by sd3 | rewrite sub6_frame by sd3 | rewrite neg6_frame by sd3 | rewrite copy6_frame by sd3 | rewrite dbl6_frame by sd3
    | rewrite mul6_frame by sd3 | rewrite square6_frame by sd3 | rewrite inv6_frame by sd3 | rewrite mulTau_frame by sd3 | rewrite mulScalar6_frame by sd3
    | rewrite mulGFP_frame by sd3 | rewrite frob6_frame by sd3 | rewrite frobP26_frame by sd3];
  reflexivity.
Lemma add12_frame r a b m : frame12 r m (F12_add K r a b m). Proof. frm3. Qed.
Lemma sub12_frame r a b m : frame12 r m (F12_sub K r a b m). Proof. frm3. Qed.
Lemma neg12_frame r a m : frame12 r m (F12_neg K r a m). Proof. frm3. Qed.
Lemma conj12_frame r a m : frame12 r m (F12_conjugate K r a m). Proof. frm3. Qed.
Lemma copy12_frame r a m : frame12 r m (F12_copy K r a m). Proof. frm3. Qed.
Lemma mul12_frame r a b m : frame12 r m (F12_mul K r a b m). Proof. frm3. Qed.
Lemma square12_frame r a m : frame12 r m (F12_square K r a m). Proof. frm3. Qed.
Lemma inv12_frame r a m : frame12 r m (F12_inv K r a m). Proof. frm3. Qed.
Lemma mulScalar12_frame r a b m : frame12 r m (F12_mulScalar K r a b m). Proof. frm3. Qed.
Lemma div12_frame r a b m : frame12 r m (F12_div K r a b m).
Proof. intros c H0 H2. unfold F12_div. rewrite mul12_frame, inv12_frame by sd3. reflexivity. Qed.

(** ** exponentiation *)
Lemma one12_eq r (m : mem) p : val12 (F12_one K r m) p = if leqb p r then @r1 (E12 K) else val12 m p.
Proof.
  unfold val12, val6, v2, val2, F12_one, upd. dec. destruct (leqb_spec p r) as [->|]; reflexivity.
Qed.
Lemma one12_frame r m : frame12 r m (F12_one K r m).
Proof.
  intros c H0 H2. unfold F12_one. repeat (rewrite upd_frame by (apply inside_neq; repeat apply inside_out; assumption)). reflexivity.
Qed.
Lemma rpow_add (x : E12 K) a b : rpow x (a + b) = @rmul (E12 K) (rpow x a) (rpow x b).
Proof. induction a as [|a IH]; cbn [Nat.add rpow]; [ring|]. rewrite IH. ring. Qed.
Lemma exp_turns_ok k : (Z.of_nat k <= 2 ^ 28)%Z -> exp_turns (Z.of_nat k) = (8 * k)%nat.
Proof.
  intros H. unfold exp_turns. cbv zeta. destruct (Nat.eq_dec k 0) as [->|]; [reflexivity|].
  rewrite Z.mod_small by lia. destruct (Z.ltb_spec (Z.of_nat k * 8 - 1) (2 ^ 31)); lia.
Qed.
Section Exp.
Variables (r a : loc) (s : list Z).
Hypothesis Hs : bytes_ok s.
Hypothesis Hra : a <> r.
Hypothesis Hr : r <> R (T3 9).
Hypothesis Ha : a <> R (T3 9).
Let k := le_val s.
Lemma exp12_loop i : forall m x, val12 m a = x -> val12 m r = rpow x (Z.to_nat (k / 2 ^ Z.of_nat i)) ->
  let m' := F12_exp_loop K i r a s m in
  val12 m' r = rpow x (Z.to_nat k) /\ (forall p, p <> r -> p <> R (T3 9) -> val12 m' p = val12 m p) /\ frame12 r m m'.
Proof.
  assert (K0 : (0 <= k)%Z) by (apply le_val_bound, Hs).
  induction i as [|i IH]; intros m x Hx Hv; cbn [F12_exp_loop].
  - cbv zeta. change (Z.of_nat 0) with 0%Z in Hv. rewrite Z.div_1_r in Hv. split; [exact Hv|]. split; [reflexivity|]. intros c _ _. reflexivity.
  - pose proof (half_bits k (Z.of_nat i) K0 ltac:(lia)) as Hh.
    replace (Z.of_nat i + 1)%Z with (Z.of_nat (S i)) in Hh by lia.
    set (h := (k / 2 ^ Z.of_nat (S i))%Z) in *.
    assert (Hh0 : (0 <= h)%Z) by (apply Z.div_pos; [auto|]; apply Z.pow_pos_nonneg; lia).
    rewrite (bit_is_set_spec s i Hs). fold k.
    set (m1 := F12_square K (R (T3 9)) r m).
    assert (A1 : forall p, p <> R (T3 9) -> val12 m1 p = val12 m p) by (intros p Hp; unfold m1; rewrite square12_eq, (leqb_neq p _ Hp); reflexivity).
    assert (T1 : val12 m1 (R (T3 9)) = rpow x (Z.to_nat (2 * h))).
    { unfold m1. rewrite square12_eq, leqb_refl, Hv, <- rpow_add. f_equal. lia. }
    set (m2 := if Z.testbit k (Z.of_nat i) then _ else _).
    assert (B1 : val12 m2 r = rpow x (Z.to_nat (k / 2 ^ Z.of_nat i))).
    { rewrite Hh. unfold m2. destruct (Z.testbit k (Z.of_nat i)); cbn [Z.b2z].
      - rewrite mul12_eq, leqb_refl, T1, (A1 a Ha), Hx. replace (Z.to_nat (2 * h + 1)) with (Z.to_nat (2 * h) + 1)%nat by lia.
        rewrite rpow_add. cbn [rpow]. ring.
      - rewrite copy12_eq, leqb_refl, T1, Z.add_0_r. reflexivity. }
    assert (B2 : forall p, p <> r -> val12 m2 p = val12 m1 p).
    { intros p Hp. unfold m2. destruct (Z.testbit k (Z.of_nat i)); [rewrite mul12_eq|rewrite copy12_eq]; rewrite (leqb_neq p _ Hp); reflexivity. }
    assert (B3 : frame12 r m1 m2) by (unfold m2; destruct (Z.testbit k (Z.of_nat i)); [apply mul12_frame|apply copy12_frame]).
    destruct (IH m2 x) as (C1 & C2 & C3); [rewrite (B2 a Hra), (A1 a Ha); exact Hx|exact B1|].
    split; [exact C1|]. split.
    + intros p Hp Hp'. rewrite (C2 p Hp Hp'), (B2 p Hp), (A1 p Hp'). reflexivity.
    + intros c H0 H2. rewrite (C3 c H0 H2), (B3 c H0 H2). unfold m1. rewrite square12_frame by sd3. reflexivity.
Qed.
Lemma exp12_spec m : (Z.of_nat (length s) <= 2 ^ 28)%Z ->
  let m' := F12_exp K r a s m in
  val12 m' r = rpow (val12 m a) (Z.to_nat (le_val s)) /\ (forall p, p <> r -> p <> R (T3 9) -> val12 m' p = val12 m p) /\ frame12 r m m'.
Proof.
  intros Hl. unfold F12_exp. rewrite exp_turns_ok by auto.
  destruct (exp12_loop (8 * length s) (F12_one K r m) (val12 m a)) as (A1 & A2 & A3).
  - rewrite one12_eq, (leqb_neq a r Hra). reflexivity.
  - rewrite one12_eq, leqb_refl. pose proof (le_val_bound s Hs) as B. rewrite Z.div_small by (replace (Z.of_nat (8 * length s)) with (8 * Z.of_nat (length s))%Z by lia; rewrite Z.pow_mul_r by lia; exact B). reflexivity.
  - split; [exact A1|]. split.
    + intros p Hp Hp'. rewrite (A2 p Hp Hp'), one12_eq, (leqb_neq p r Hp). reflexivity.
    + intros c H0 H2. rewrite (A3 c H0 H2). apply one12_frame; auto.
Qed.
End Exp.
(** in place the base is lost: the result is one *)
Lemma exp12_alias_loop r s i : r <> R (T3 9) -> forall m, val12 m r = @r1 (E12 K) -> val12 (F12_exp_loop K i r r s m) r = @r1 (E12 K).
Proof.
  intros Hr. induction i as [|i IH]; intros m H; cbn [F12_exp_loop]; [exact H|]. cbv zeta. apply IH.
  destruct (bit_is_set s i).
  - rewrite mul12_eq, leqb_refl, !square12_eq, leqb_refl, (leqb_neq r _ Hr), H. ring.
  - rewrite copy12_eq, leqb_refl, !square12_eq, leqb_refl, H. ring.
Qed.
Lemma exp12_alias r s m : r <> R (T3 9) -> val12 (F12_exp K r r s m) r = @r1 (E12 K).
Proof. intros Hr. apply exp12_alias_loop; [auto|]. rewrite one12_eq, leqb_refl. reflexivity. Qed.
End L12.
