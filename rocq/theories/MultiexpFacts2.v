(** Digits of scalars, and the whole of multiexp. *)
From Coq Require Import ZArith List Lia Bool Permutation.
From Verif Require Import Bytes BytesFacts Group GroupTac Naf NafFacts Multiexp MultiexpFacts.
Import ListNotations.
Open Scope Z_scope.
Ltac Zify.zify_post_hook ::= idtac.

Lemma le_val_firstn_skipn l k : bytes_ok l -> le_val l = le_val (firstn k l) + 256 ^ Z.of_nat (length (firstn k l)) * le_val (skipn k l).
Proof. intros H. rewrite <- (firstn_skipn k l) at 1. apply le_val_app. Qed.
Lemma bytes_ok_firstn k l : bytes_ok l -> bytes_ok (firstn k l).
Proof. unfold bytes_ok. rewrite !Forall_forall. intros H x Hx. apply H. rewrite <- (firstn_skipn k l). apply in_or_app. left. exact Hx. Qed.
Lemma le_val_firstn l k : bytes_ok l -> (k <= length l)%nat -> le_val (firstn k l) = le_val l mod 256 ^ Z.of_nat k.
Proof.
  intros H L. pose proof (le_val_bound _ (bytes_ok_firstn k l H)) as B. rewrite (le_val_firstn_skipn l k H).
  rewrite firstn_length_le in * by lia. rewrite Z.mul_comm, Z_mod_plus_full, Z.mod_small by lia. reflexivity.
Qed.
Lemma le_val_skipn l k : bytes_ok l -> (k <= length l)%nat -> le_val (skipn k l) = le_val l / 256 ^ Z.of_nat k.
Proof.
  intros H L. pose proof (le_val_bound _ (bytes_ok_firstn k l H)) as B. rewrite (le_val_firstn_skipn l k H) at 1.
  rewrite firstn_length_le in * by lia. rewrite Z.mul_comm, Z_div_plus_full, Z.div_small by lia. lia.
Qed.

Lemma skipn_skipn' {T} (a : nat) : forall b (l : list T), skipn b (skipn a l) = skipn (a + b) l.
Proof. induction a as [|a IH]; intros b l; [reflexivity|]. destruct l; [destruct b; reflexivity|]. apply IH. Qed.

(** the i-th scalar, as an integer *)
Definition scalar (scalars : list Z) (S i : Z) : Z := le_val (firstn (Z.to_nat S) (skipn (Z.to_nat (i * S)) scalars)).
Lemma scalar_bound scalars S i : bytes_ok scalars -> 0 <= S -> 0 <= scalar scalars S i < 2 ^ (8 * S).
Proof.
  intros H HS. unfold scalar. pose proof (le_val_bound _ (bytes_ok_firstn (Z.to_nat S) _ (bytes_ok_skipn (Z.to_nat (i * S)) _ H))) as B.
  split; [apply B|]. eapply Z.lt_le_trans; [apply B|]. rewrite Z.pow_mul_r by lia. apply Z.pow_le_mono_r; [lia|]. rewrite firstn_length. lia.
Qed.
Lemma pow256 k : 0 <= k -> 256 ^ k = 2 ^ (8 * k). Proof. intros H. rewrite Z.pow_mul_r by lia. reflexivity. Qed.
Lemma load_scalar scalars S n i bs : bytes_ok scalars -> 8 <= S -> Z.of_nat (length scalars) = n * S -> 0 <= i < n -> 0 <= bs <= S - 8 ->
  load64 scalars (i * S + bs) = Some ((scalar scalars S i / 2 ^ (8 * bs)) mod 2 ^ 64).
Proof.
  intros H HS L Hi Hb. unfold load64. assert (0 <= i * S) by nia. assert (i * S + S <= n * S) by nia.
  destruct (Z.ltb_spec (i * S + bs) 0); [lia|]. destruct (Z.ltb_spec (Z.of_nat (length scalars)) (i * S + bs + 8)); [lia|]. cbn [orb]. f_equal.
  set (l := firstn (Z.to_nat S) (skipn (Z.to_nat (i * S)) scalars)).
  assert (Hl : bytes_ok l) by (apply bytes_ok_firstn, bytes_ok_skipn, H).
  assert (Ll : length l = Z.to_nat S) by (unfold l; rewrite firstn_length_le; [reflexivity|rewrite skipn_length; lia]).
  assert (E : firstn 8 (skipn (Z.to_nat (i * S + bs)) scalars) = firstn 8 (skipn (Z.to_nat bs) l)).
  { unfold l. rewrite skipn_firstn_comm, firstn_firstn, skipn_skipn'. f_equal; [lia|]. f_equal. lia. }
  rewrite E, le_val_firstn by (try apply bytes_ok_skipn, Hl; rewrite skipn_length; lia). rewrite le_val_skipn by (auto; lia).
  rewrite Z2Nat.id by lia. rewrite pow256 by lia. reflexivity.
Qed.
Lemma testbit_high x k j : 0 <= x < 2 ^ k -> 0 <= k <= j -> Z.testbit x j = false.
Proof. intros Hx Hk. rewrite <- (Z.mod_small x (2 ^ k)) by lia. apply Z.mod_pow2_bits_high. lia. Qed.
Lemma digit_bits v K shift eff bits start : 0 <= shift -> 0 <= eff <= bits -> shift + eff <= 64 -> 0 <= start ->
  v = (K / 2 ^ (start - shift)) mod 2 ^ 64 -> shift <= start -> (forall j, eff <= j < bits -> Z.testbit K (start + j) = false) ->
  Z.land (Z.shiftr v shift) (Z.shiftl 1 eff - 1) = (K / 2 ^ start) mod 2 ^ bits.
Proof.
  intros H1 H2 H3 H4 -> H5 H6. rewrite Z.shiftl_1_l. replace (2 ^ eff - 1) with (Z.ones eff) by (rewrite Z.ones_equiv; lia). rewrite Z.land_ones by lia.
  apply Z.bits_inj'. intros j Hj. destruct (Z.lt_ge_cases j eff) as [L|G].
  - rewrite !Z.mod_pow2_bits_low, Z.shiftr_spec, Z.mod_pow2_bits_low by lia. rewrite !Z.div_pow2_bits by lia. f_equal. lia.
  - rewrite Z.mod_pow2_bits_high by lia. destruct (Z.lt_ge_cases j bits) as [L|G'].
    + rewrite Z.mod_pow2_bits_low, Z.div_pow2_bits by lia. rewrite Z.add_comm, H6 by lia. reflexivity.
    + rewrite Z.mod_pow2_bits_high by lia. reflexivity.
Qed.
(** the digit, common to getChunk and MSM's getBucketIndex *)
Lemma getChunk_ok scalars S n bits i c : bytes_ok scalars -> 8 <= S -> Z.of_nat (length scalars) = n * S -> n * S < 2 ^ 64 -> 8 * S < 2 ^ 63 -> 0 <= i < n ->
  1 <= bits <= 16 -> 0 <= c -> c * bits < 8 * S ->
  getChunk scalars S bits i c = Some ((scalar scalars S i / 2 ^ (c * bits)) mod 2 ^ bits).
Proof.
  intros H HS L B1 B2 Hi Hb Hc Hcb. unfold getChunk. set (st := c * bits) in *.
  assert (Hst : 0 <= st) by (unfold st; nia).
  assert (W : forall x, 0 <= x < 2 ^ 64 -> w64 x = x) by (intros; apply Z.mod_small; lia).
  rewrite (W st), (W (S - 8)), (W (S * 8)), (W (st + bits)) by lia.
  pose proof (scalar_bound scalars S i H ltac:(lia)) as SB. set (K := scalar scalars S i) in *.
  pose proof (Z.div_mod st 8 ltac:(lia)) as DM. pose proof (Z.mod_pos_bound st 8 ltac:(lia)) as MB.
  assert (0 <= i * S) by nia. assert (i * S + S <= n * S) by nia.
  destruct (Z.ltb_spec (S - 8) (st / 8)) as [C|C].
  - destruct (Z.ltb_spec (S * 8) (st + bits)) as [C2|C2].
    + rewrite (W (S * 8 - st)), (W (st - (S - 8) * 8)), (W (i * S + (S - 8))) by lia.
      rewrite (load_scalar scalars S n i (S - 8)) by (auto; lia). cbn [obind]. fold K.
      destruct (Z.leb_spec 64 (st - (S - 8) * 8)); [lia|]. destruct (Z.leb_spec 31 (S * 8 - st)); [lia|]. cbn [orb]. f_equal.
      apply digit_bits; try lia; [do 3 f_equal; lia|]. intros j Hj. apply (testbit_high K (8 * S)); lia.
    + rewrite (W (st - (S - 8) * 8)), (W (i * S + (S - 8))) by lia.
      rewrite (load_scalar scalars S n i (S - 8)) by (auto; lia). cbn [obind]. fold K.
      destruct (Z.leb_spec 64 (st - (S - 8) * 8)); [lia|]. destruct (Z.leb_spec 31 bits); [lia|]. cbn [orb]. f_equal.
      apply digit_bits; try lia. do 3 f_equal; lia.
  - destruct (Z.ltb_spec (S * 8) (st + bits)) as [C2|C2]; [lia|].
    rewrite (W (st - st / 8 * 8)), (W (i * S + st / 8)) by lia.
    rewrite (load_scalar scalars S n i (st / 8)) by (auto; lia). cbn [obind]. fold K.
    destruct (Z.leb_spec 64 (st - st / 8 * 8)); [lia|]. destruct (Z.leb_spec 31 bits); [lia|]. cbn [orb]. f_equal.
    apply digit_bits; try lia. do 3 f_equal; lia.
Qed.

(** ** digits recombined *)
Fixpoint digits_val (bits : Z) (d : nat -> Z) (k : nat) : Z := match k with O => 0 | S k => digits_val bits d k + d k * 2 ^ (bits * Z.of_nat k) end.
Lemma digits_sum bits K k : 0 < bits -> 0 <= K -> digits_val bits (fun j => (K / 2 ^ (Z.of_nat j * bits)) mod 2 ^ bits) k = K mod 2 ^ (bits * Z.of_nat k).
Proof.
  intros Hb HK. induction k as [|k IH]; cbn [digits_val]; [rewrite Z.mul_0_r, Z.mod_1_r; reflexivity|]. rewrite IH.
  rewrite (Z.mul_comm (Z.of_nat k)). set (p := 2 ^ (bits * Z.of_nat k)). assert (0 < p) by (apply Z.pow_pos_nonneg; lia).
  replace (bits * Z.of_nat (S k)) with (bits * Z.of_nat k + bits) by lia. rewrite Z.pow_add_r by lia. fold p.
  rewrite (Z.rem_mul_r K p (2 ^ bits)) by (try apply Z.pow_pos_nonneg; lia). lia.
Qed.

Section Whole.
Variable A : abgroup.
Variable E : Type.
Variables (zero cleared : E) (dbl : E -> E) (add addm subm : E -> E -> E) (isz iszm : E -> bool).
Variables rep repB : E -> A -> Prop.
Hypothesis rep_zero : rep zero gzero.
Hypothesis rep_cleared : rep cleared gzero.
Hypothesis rep_dbl : forall e x, rep e x -> rep (dbl e) (gadd x x).
Hypothesis rep_add : forall e x e' y, rep e x -> rep e' y -> rep (add e e') (gadd x y).
Hypothesis rep_addm : forall e x b y, rep e x -> repB b y -> rep (addm e b) (gadd x y).
Hypothesis rep_subm : forall e x b y, rep e x -> repB b y -> rep (subm e b) (gadd x (gneg y)).
Hypothesis rep_isz : forall e x, rep e x -> isz e = true -> x = gzero.
Hypothesis rep_iszm : forall b y, repB b y -> iszm b = true -> y = gzero.

(** horner *)
Lemma dbls_ok k : forall e x, rep e x -> rep (dbls E dbl k e) (zmul (2 ^ Z.of_nat k) x).
Proof.
  induction k as [|k IH]; intros e x H; cbn [dbls]; [rewrite zmul_1; exact H|].
  replace (zmul (2 ^ Z.of_nat (S k)) x) with (zmul (2 ^ Z.of_nat k) (gadd x x)); [apply IH, rep_dbl, H|].
  rewrite Nat2Z.inj_succ, Z.pow_succ_r by lia. agroup.
Qed.
Definition hsum (bits : Z) (D : Z -> A) (k : nat) : A := wsum A (fun j => 2 ^ (bits * j)) D (zrange 0 k).
Lemma hsum_S bits D k : hsum bits D (S k) = gadd (hsum bits D k) (zmul (2 ^ (bits * Z.of_nat k)) (D (Z.of_nat k))).
Proof.
  unfold hsum. replace (S k) with (k + 1)%nat by lia. rewrite zrange_app, wsum_app. f_equal. rewrite Z.add_0_l, zrange_S.
  change (zrange (Z.of_nat k + 1) 0) with (@nil Z). unfold wsum. cbn. apply gadd_0_r.
Qed.
Lemma horner_ok bits results D N : 0 <= bits -> repA A E rep N results D -> forall k r x, Z.of_nat k <= N -> rep r x ->
  exists r', horner E dbl add bits results k r = Some r' /\ rep r' (gadd (zmul (2 ^ (bits * Z.of_nat k)) x) (hsum bits D k)).
Proof.
  intros Hb R. induction k as [|k IH]; intros r x Hk Hr; cbn [horner].
  - exists r. split; [reflexivity|]. rewrite Z.mul_0_r. replace (gadd _ _) with x; [exact Hr|]. unfold hsum. cbn -[zmul]. rewrite gadd_0_r, zmul_1. reflexivity.
  - destruct (proj2 R (Z.of_nat k) ltac:(lia)) as (c & -> & Rc). cbn [obind].
    destruct (IH (add (dbls E dbl (Z.to_nat bits) r) c) (gadd (zmul (2 ^ bits) x) (D (Z.of_nat k)))) as (r' & E' & R'); [lia|apply rep_add; [|exact Rc]|].
    { pose proof (dbls_ok (Z.to_nat bits) r x Hr) as H. rewrite Z2Nat.id in H by lia. exact H. }
    exists r'. split; [exact E'|]. replace (gadd _ _) with (gadd (zmul (2 ^ (bits * Z.of_nat k)) (gadd (zmul (2 ^ bits) x) (D (Z.of_nat k)))) (hsum bits D k)); [exact R'|].
    rewrite hsum_S. replace (bits * Z.of_nat (S k)) with (bits * Z.of_nat k + bits) by lia. rewrite Z.pow_add_r by lia. agroup.
Qed.
Lemma repA_snoc a l D e : repA A E rep a l D -> rep e (D a) -> repA A E rep (a + 1) (l ++ [e]) D.
Proof.
  intros [L H] He. split; [rewrite app_length; cbn; lia|]. intros i Hi. unfold aget. destruct (Z.ltb_spec i 0); [lia|].
  destruct (Z.eq_dec i a) as [->|Na].
  - exists e. split; [|exact He]. rewrite nth_error_app2 by lia. replace (Z.to_nat a - length l)%nat with 0%nat by lia. reflexivity.
  - destruct (H i ltac:(lia)) as (x & Hx & Rx). exists x. split; [|exact Rx]. unfold aget in Hx. destruct (Z.ltb_spec i 0); [lia|]. rewrite nth_error_app1 by lia. exact Hx.
Qed.

(** one chunk *)
Variables (bases : list E) (P : Z -> A) (scalars : list Z) (S n nT bits : Z) (skip : Z -> option bool) (sel : Z -> bool).
Hypothesis H_bases : repA A E repB n bases P.
Hypothesis H_bytes : bytes_ok scalars.
Hypothesis H_S : 8 <= S.
Hypothesis H_len : Z.of_nat (length scalars) = n * S.
Hypothesis H_64 : n * S < 2 ^ 64.
Hypothesis H_S28 : S < 2 ^ 28.
Hypothesis H_n : 0 <= n.
Hypothesis H_bits : 2 <= bits <= 16.
Hypothesis H_nT : 1 <= nT < 2 ^ 48.
Hypothesis H_skip : forall i, 0 <= i < n -> skip i = Some (negb (sel i)).
Let apc := 2 ^ bits.
Let N := nT * apc.
Definition P' (i : Z) : A := if sel i then P i else gzero.
Definition dig (c i : Z) : Z := (scalar scalars S i / 2 ^ (c * bits)) mod 2 ^ bits.
Lemma apc_b : 4 <= apc <= 65536.
Proof. unfold apc. split; [change 4 with (2 ^ 2)|change 65536 with (2 ^ 16)]; apply Z.pow_le_mono_r; lia. Qed.
Lemma N_b : N < 2 ^ 64. Proof. pose proof apc_b. unfold N. nia. Qed.

Lemma pc_iter_ok c i tid accs f : 0 <= c -> c * bits < 8 * S -> 0 <= i < n -> 0 <= tid < nT -> repA A E rep N accs f ->
  exists accs' f', pc_iter E addm iszm skip bases scalars S bits apc c (i, tid) accs = Some accs' /\ repA A E rep N accs' f' /\
    W A N apc f' = gadd (W A N apc f) (zmul (dig c i) (P' i)).
Proof.
  intros Hc Hcb Hi Ht R. unfold pc_iter. rewrite H_skip by exact Hi. cbn [obind]. unfold P'. destruct (sel i); cbn [negb].
  2:{ exists accs, f. split; [reflexivity|]. split; [exact R|]. rewrite zmul_zero, gadd_0_r. reflexivity. }
  destruct (proj2 H_bases i Hi) as (b & -> & Rb). cbn [obind]. destruct (iszm b) eqn:Zb.
  { exists accs, f. split; [reflexivity|]. split; [exact R|]. rewrite (rep_iszm _ _ Rb Zb), zmul_zero, gadd_0_r. reflexivity. }
  rewrite (getChunk_ok scalars S n bits i c) by (auto; lia). cbn [obind]. fold (dig c i). pose proof apc_b.
  assert (DB : 0 <= dig c i < apc) by (apply Z.mod_pos_bound; lia).
  destruct (Z.eqb_spec (dig c i) 0) as [->|Nz].
  { exists accs, f. split; [reflexivity|]. split; [exact R|]. rewrite zmul_0, gadd_0_r. reflexivity. }
  pose proof N_b. rewrite (idx_64 N apc nT) by (auto; lia). set (k := tid * apc + dig c i).
  assert (Hk : 0 <= k < N) by (apply (idx_bound N apc nT); auto; lia).
  destruct (proj2 R k Hk) as (a & -> & Ra). cbn [obind].
  destruct (rput A E rep N accs f k (addm a b) (P i) R Hk (rep_addm _ _ _ _ Ra Rb)) as (l1 & -> & R1).
  exists l1, (fadd A f k (P i)). split; [reflexivity|]. split; [exact R1|]. rewrite (W_fadd A N apc nT) by (auto; lia). do 2 f_equal. apply idx_mod. lia.
Qed.
Lemma pc_loop_ok c : 0 <= c -> c * bits < 8 * S -> forall l accs f, (forall it, In it l -> 0 <= fst it < n /\ 0 <= snd it < nT) -> repA A E rep N accs f ->
  exists accs' f', ofold (pc_iter E addm iszm skip bases scalars S bits apc c) l accs = Some accs' /\ repA A E rep N accs' f' /\
    W A N apc f' = gadd (W A N apc f) (wsum A (dig c) P' (map fst l)).
Proof.
  intros Hc Hcb. induction l as [|[i t] l IH]; intros accs f Hl R; cbn [ofold].
  - exists accs, f. split; [reflexivity|]. split; [exact R|]. cbn. symmetry. apply gadd_0_r.
  - destruct (Hl (i, t) (or_introl eq_refl)) as [Hi Ht]. cbn [fst snd] in Hi, Ht.
    destruct (pc_iter_ok c i t accs f Hc Hcb Hi Ht R) as (l1 & f1 & -> & R1 & W1). cbn [obind].
    destruct (IH l1 f1 (fun it H => Hl it (or_intror H)) R1) as (l2 & f2 & -> & R2 & W2).
    exists l2, f2. split; [reflexivity|]. split; [exact R2|]. cbn [map fst]. rewrite W2, W1, wsum_cons. symmetry. apply gadd_assoc.
Qed.
(** schedules *)
Definition sched_ok (sc : sched) : Prop := forall c,
  Permutation (map fst (s_proc sc c)) (zrange 0 (Z.to_nat n)) /\ Forall (fun it => 0 <= snd it < nT) (s_proc sc c) /\
  Permutation (s_pack sc c) (zrange 0 (Z.to_nat apc)) /\ red_sched_ok nT (s_red sc c).
Definition D (c : Z) : A := wsum A (dig c) P' (zrange 0 (Z.to_nat n)).
Definition clean (f : Z -> A) : Prop := forall k, 0 <= k < N -> k mod apc <> 0 -> f k = gzero.
Lemma chunk_step_ok sc c accs results f : sched_ok sc -> 0 <= c -> c * bits < 8 * S -> repA A E rep N accs f -> clean f -> repA A E rep c results D ->
  exists accs' results' f', chunk_step E zero cleared dbl add addm isz iszm skip bases scalars S bits apc nT sc c (accs, results) = Some (accs', results') /\
    repA A E rep N accs' f' /\ clean f' /\ repA A E rep (c + 1) results' D.
Proof.
  intros HS Hc Hcb R Cl RR. unfold chunk_step. destruct (HS c) as (H1 & H2 & H3 & H4). pose proof apc_b. pose proof N_b.
  destruct (pc_loop_ok c Hc Hcb (s_proc sc c) accs f) as (l1 & f1 & -> & R1 & W1); [|exact R|].
  { intros it Hit. split; [|rewrite Forall_forall in H2; apply H2, Hit].
    assert (Hin : In (fst it) (zrange 0 (Z.to_nat n))) by (eapply Permutation_in; [exact H1|apply in_map, Hit]). apply zrange_in in Hin. lia. }
  cbn [obind].
  destruct (pt_all_ok A E zero add isz rep rep_zero rep_add rep_isz N apc nT ltac:(lia) ltac:(lia) eq_refl ltac:(lia) (s_pack sc c) l1 f1) as (l2 & f2 & -> & R2 & W2 & Z2); [|exact R1|].
  { intros i Hi. assert (Hin : In i (zrange 0 (Z.to_nat apc))) by (eapply Permutation_in; [exact H3|exact Hi]). apply zrange_in in Hin. lia. }
  cbn [obind].
  assert (Hpow : 2 ^ Z.of_nat (Z.to_nat bits) = apc) by (rewrite Z2Nat.id by lia; reflexivity).
  destruct (reduce_ok A E zero cleared dbl add isz rep rep_zero rep_cleared rep_dbl rep_add rep_isz N apc nT ltac:(lia) ltac:(lia) eq_refl ltac:(lia) (s_red sc c) H4 (Z.to_nat bits) l2 f2)
    as (r & l3 & f3 & -> & Rr & R3 & Z3 & F3); [lia|rewrite Hpow; unfold N; nia|exact R2|]. rewrite Hpow in Z3, F3.
  cbn [obind fst snd]. exists l3, (results ++ [r]), f3. split; [reflexivity|]. split; [exact R3|].
  assert (Zhi : forall k, apc <= k < N -> f2 k = gzero).
  { intros k Hk. pose proof (Z.div_mod k apc ltac:(lia)) as DM. pose proof (Z.mod_pos_bound k apc ltac:(lia)) as MB.
    replace k with (k / apc * apc + k mod apc) by lia. apply Z2; [lia| |].
    - split; [apply Z.div_le_lower_bound; lia|apply Z.div_lt_upper_bound; unfold N in Hk; lia].
    - left. apply (Permutation_in (l := zrange 0 (Z.to_nat apc))); [apply Permutation_sym, H3|apply zrange_in; lia]. }
  split.
  - intros k Hk Nk. destruct (Z.lt_ge_cases k apc) as [Lk|Gk].
    + apply Z3. destruct (Z.eq_dec k 0) as [->|]; [rewrite Z.mod_0_l in Nk by lia; lia|lia].
    + rewrite F3 by lia. apply Zhi. lia.
  - apply repA_snoc; [exact RR|]. replace (D c) with (V A (Z.to_nat bits) f2); [exact Rr|].
    assert (E1 : V A (Z.to_nat bits) f2 = W A N apc f2).
    { unfold V, W. rewrite Hpow. replace (Z.to_nat N) with (Z.to_nat apc + Z.to_nat (N - apc))%nat by (unfold N; nia). rewrite zrange_app, wsum_app.
      rewrite (wsum_zero A (fun k => k mod apc) f2 (zrange (0 + _) _)).
      - rewrite gadd_0_r. unfold wsum. f_equal. apply map_ext_in. intros i Hi. apply zrange_in in Hi. rewrite Z.mod_small by lia. reflexivity.
      - intros i Hi. apply zrange_in in Hi. right. apply Zhi. lia. }
    rewrite E1, W2, W1. unfold W. rewrite (wsum_zero A (fun k => k mod apc) f (zrange 0 (Z.to_nat N))).
    + rewrite gadd_0_l. unfold D, wsum. apply gsum_perm, Permutation_map. exact H1.
    + intros k Hk. apply zrange_in in Hk. destruct (Z.eq_dec (k mod apc) 0) as [->|Nk]; [left; reflexivity|right]. apply Cl; [lia|exact Nk].
Qed.
Lemma chunks_ok sc : sched_ok sc -> forall k c accs results f, 0 <= c -> (c + Z.of_nat k - 1) * bits < 8 * S -> repA A E rep N accs f -> clean f -> repA A E rep c results D ->
  exists accs' results', ofold (chunk_step E zero cleared dbl add addm isz iszm skip bases scalars S bits apc nT sc) (zrange c k) (accs, results) = Some (accs', results') /\
    repA A E rep (c + Z.of_nat k) results' D.
Proof.
  intros HS. induction k as [|k IH]; intros c accs results f Hc Hcb R Cl RR.
  - exists accs, results. split; [reflexivity|]. replace (c + Z.of_nat 0) with c by lia. exact RR.
  - rewrite zrange_S. cbn [ofold].
    destruct (chunk_step_ok sc c accs results f HS Hc ltac:(nia) R Cl RR) as (l1 & r1 & f1 & -> & R1 & C1 & RR1). cbn [obind].
    destruct (IH (c + 1) l1 r1 f1) as (l2 & r2 & -> & RR2); auto; [lia|nia|]. exists l2, r2. split; [reflexivity|].
    replace (c + Z.of_nat (Datatypes.S k)) with (c + 1 + Z.of_nat k) by lia. exact RR2.
Qed.
(** the sum the function is to compute *)
Definition target : A := wsum A (scalar scalars S) P' (zrange 0 (Z.to_nat n)).
Lemma hsum_target k : 8 * S <= bits * Z.of_nat k -> hsum bits D k = target.
Proof.
  intros Hk. unfold hsum, target, D, wsum.
  rewrite (map_ext (fun j => zmul (2 ^ (bits * j)) (gsum (map (fun i => zmul (dig j i) (P' i)) (zrange 0 (Z.to_nat n)))))
    (fun j => gsum (map (fun i => zmul (2 ^ (bits * j) * dig j i) (P' i)) (zrange 0 (Z.to_nat n))))).
  2:{ intros j. rewrite <- gsum_zmul, map_map. f_equal. apply map_ext. intros i. apply zmul_zmul. }
  rewrite gsum_swap. f_equal. apply map_ext. intros i.
  assert (G : forall k, gsum (map (fun j => zmul (2 ^ (bits * j) * dig j i) (P' i)) (zrange 0 k)) = zmul (digits_val bits (fun j => dig (Z.of_nat j) i) k) (P' i)).
  { clear k Hk. induction k as [|k IH]; [reflexivity|]. replace (Datatypes.S k) with (k + 1)%nat at 1 by lia. rewrite zrange_app, map_app, gsum_app, IH. cbn [digits_val].
    rewrite zmul_add. f_equal. rewrite Z.add_0_l, zrange_S. change (zrange (Z.of_nat k + 1) 0) with (@nil Z). cbn [map gsum fold_right]. rewrite gadd_0_r. f_equal. lia. }
  rewrite G. f_equal. unfold dig. pose proof (scalar_bound scalars S i H_bytes ltac:(lia)) as SB. rewrite digits_sum by lia. apply Z.mod_small.
  split; [lia|]. eapply Z.lt_le_trans; [apply SB|]. apply Z.pow_le_mono_r; lia.
Qed.
End Whole.

Section Top.
Variable A : abgroup.
Variable E : Type.
Variables (zero cleared : E) (dbl : E -> E) (add addm subm : E -> E -> E) (isz iszm : E -> bool).
Variables rep repB : E -> A -> Prop.
Hypothesis rep_zero : rep zero gzero.
Hypothesis rep_cleared : rep cleared gzero.
Hypothesis rep_dbl : forall e x, rep e x -> rep (dbl e) (gadd x x).
Hypothesis rep_add : forall e x e' y, rep e x -> rep e' y -> rep (add e e') (gadd x y).
Hypothesis rep_addm : forall e x b y, rep e x -> repB b y -> rep (addm e b) (gadd x y).
Hypothesis rep_subm : forall e x b y, rep e x -> repB b y -> rep (subm e b) (gadd x (gneg y)).
Hypothesis rep_isz : forall e x, rep e x -> isz e = true -> x = gzero.
Hypothesis rep_iszm : forall b y, repB b y -> iszm b = true -> y = gzero.
Variables (bases : list E) (P : Z -> A) (scalars : list Z) (S n nT : Z) (skip : Z -> option bool) (sel : Z -> bool).
Hypothesis H_bases : repA A E repB n bases P.
Hypothesis H_bytes : bytes_ok scalars.
Hypothesis H_S : 8 <= S.
Hypothesis H_len : Z.of_nat (length scalars) = n * S.
Hypothesis H_64 : n * S < 2 ^ 64.
Hypothesis H_S28 : S < 2 ^ 28.
Hypothesis H_n : 0 <= n.
Hypothesis H_nT : 1 <= nT < 2 ^ 48.
Hypothesis H_skip : forall i, 0 <= i < n -> skip i = Some (negb (sel i)).
Hypothesis H_sel1 : n = 1 -> sel 0 = true.
Lemma bits_bound : 2 <= bits_per_chunk n <= 16.
Proof.
  unfold bits_per_chunk. set (b := if 16 <? _ then 16 else _). assert (b <= 16).
  { unfold b. destruct (Z.ltb_spec 16 (log2_u32 (w32 (n / 2)))); lia. }
  destruct (Z.ltb_spec b 2); lia.
Qed.
Lemma multiexp_ok sc : sched_ok n nT (bits_per_chunk n) sc ->
  exists r, multiexp_with E zero cleared dbl add addm subm isz iszm skip bases scalars S n nT sc = Some r /\ rep r (target A P scalars S n sel).
Proof.
  intros HS. unfold multiexp_with. destruct (Z.eqb_spec n 0) as [E0|N0].
  { exists zero. split; [reflexivity|]. unfold target. rewrite E0. exact rep_zero. }
  destruct (Z.eqb_spec n 1) as [E1|N1].
  { destruct (proj2 H_bases 0 ltac:(lia)) as (b & -> & Rb). cbn [obind]. rewrite E1 in H_len. destruct (Z.ltb_spec (Z.of_nat (length scalars)) S); [lia|].
    unfold w32. rewrite (Z.mod_small S) by lia. rewrite firstn_all2 by lia.
    destruct (nafMul_spec A E zero dbl addm subm rep repB rep_zero rep_dbl rep_addm rep_subm 1%nat 0%nat scalars (fun _ => b) (P 0) H_bytes) as (m' & -> & R' & _); auto.
    { intros E2. rewrite E2 in H_len. cbn [length] in H_len. lia. } { lia. }
    cbn [obind]. exists (m' 1%nat). split; [reflexivity|]. unfold target. rewrite E1. change (zrange 0 (Z.to_nat 1)) with [0]. unfold wsum. cbn [map gsum fold_right].
    rewrite gadd_0_r. unfold P'. rewrite (H_sel1 E1). replace (scalar scalars S 0) with (le_val scalars); [exact R'|].
    unfold scalar. rewrite Z.mul_0_l. cbn [Z.to_nat skipn]. rewrite firstn_all2 by lia. reflexivity. }
  pose proof bits_bound as HB. set (bits := bits_per_chunk n) in *. rewrite Z.shiftl_1_l.
  assert (W1 : w64 (S * 8 - 1) = S * 8 - 1) by (apply Z.mod_small; lia). rewrite W1.
  pose proof (Z.div_mod (S * 8 - 1) bits ltac:(lia)) as DM. pose proof (Z.mod_pos_bound (S * 8 - 1) bits ltac:(lia)) as MB.
  set (q := (S * 8 - 1) / bits) in *. assert (Hq : 0 <= q) by (apply Z.div_pos; lia). assert (Hq1 : 1 <= q) by nia. assert (Hq2 : q < 2 ^ 31) by nia.
  assert (W2 : w64 (q + 1) = q + 1) by (apply Z.mod_small; lia). rewrite W2.
  assert (AB : 4 <= 2 ^ bits <= 65536) by (split; [change 4 with (2 ^ 2)|change 65536 with (2 ^ 16)]; apply Z.pow_le_mono_r; lia).
  assert (W3 : w64 (nT * 2 ^ bits) = nT * 2 ^ bits) by (apply Z.mod_small; nia). rewrite W3.
  destruct (chunks_ok A E zero cleared dbl add addm isz iszm rep repB rep_zero rep_cleared rep_dbl rep_add rep_addm rep_isz rep_iszm
    bases P scalars S n nT bits skip sel H_bases H_bytes H_S H_len H_64 H_S28 HB H_nT H_skip sc HS (Z.to_nat (q + 1)) 0 (repeat zero (Z.to_nat (nT * 2 ^ bits))) [] (fun _ => gzero))
    as (l1 & res & -> & RR).
  { lia. } { rewrite Z2Nat.id by lia. nia. }
  { pose proof (repA_repeat A E rep (Z.to_nat (nT * 2 ^ bits)) zero rep_zero) as H. rewrite Z2Nat.id in H; [exact H|]. nia. }
  { intros k _ _. reflexivity. }
  { split; [reflexivity|]. intros i Hi. lia. }
  cbn [obind snd]. rewrite Z2Nat.id, Z.add_0_l in RR by lia.
  destruct (proj2 RR (q + 1 - 1) ltac:(lia)) as (r & -> & Rr). cbn [obind].
  assert (W4 : s32 (q + 1 - 2) + 1 = q).
  { unfold s32. rewrite Z.mod_small by lia. destruct (Z.ltb_spec (q + 1 - 2) (2 ^ 31)); lia. }
  rewrite W4. destruct (horner_ok A E dbl add rep rep_dbl rep_add bits res _ (q + 1) ltac:(lia) RR (Z.to_nat q) r _ ltac:(lia) Rr) as (r' & -> & Rr').
  exists r'. split; [reflexivity|]. replace (q + 1 - 1) with (Z.of_nat (Z.to_nat q)) in Rr' by lia.
  rewrite gadd_comm, <- hsum_S in Rr'. rewrite (hsum_target A P scalars S n nT bits sel) in Rr'; auto. nia.
Qed.
End Top.
