(** fft and ifft compute the transforms. *)
From Coq Require Import ZArith List Bool Lia Ring Arith.
From Verif Require Import Multiexp MultiexpFacts MsmFacts Tower Par ParFacts Threads ThreadsFacts Fft FftFacts FftAlg.
Import ListNotations.
Open Scope nat_scope.
Ltac Zify.zify_post_hook ::= idtac.

Lemma pow2_Z k : Z.of_nat (2 ^ k) = (2 ^ Z.of_nat k)%Z.
Proof. induction k as [|k IH]; [reflexivity|]. rewrite Nat.pow_succ_r', Nat2Z.inj_succ, Z.pow_succ_r by lia. lia. Qed.
Lemma pow2_pos k : 0 < 2 ^ k. Proof. induction k as [|k IH]; [cbn; lia|]. rewrite Nat.pow_succ_r'. lia. Qed.
Definition nrev (p x : nat) : nat := Z.to_nat (rev p (Z.of_nat x)).
Lemma nrev_lt p x : nrev p x < 2 ^ p.
Proof. unfold nrev. pose proof (rev_bound p (Z.of_nat x)). rewrite <- pow2_Z in H. lia. Qed.
Lemma nrev_hi p b : b < 2 ^ p -> nrev (S p) (2 * b) = nrev p b /\ nrev (S p) (2 * b + 1) = nrev p b + 2 ^ p.
Proof.
  intros H. unfold nrev. pose proof (rev_bound p (Z.of_nat b)) as RB. destruct (rev_hi p (Z.of_nat b)) as [E1 E2]; [rewrite <- pow2_Z; lia|].
  replace (Z.of_nat (2 * b)) with (2 * Z.of_nat b)%Z by lia. replace (Z.of_nat (2 * b + 1)) with (2 * Z.of_nat b + 1)%Z by lia. rewrite E1, E2.
  split; [reflexivity|]. rewrite Z2Nat.inj_add by lia. f_equal. rewrite <- pow2_Z. lia.
Qed.

Section Stages.
Variable K : rng.
Add Ring Kr : (r_th K).
Notation "x +k y" := (radd x y) (at level 50, left associativity). Notation "x *k y" := (rmul x y) (at level 40, left associativity).
Variables (Sv p : nat) (w : K) (nT : Z).
Hypothesis HT : (1 <= nT < 2 ^ 31)%Z.
Hypothesis Hp : p <= 30.
Hypothesis HSp : p <= Sv.
Hypothesis HS : 1 <= Sv <= 63.
Hypothesis Hw : kpow K w (2 ^ (Sv - 1)) = ropp r1.
(** the table of roots *)
Definition table (m : pmem K) : Prop := forall i, i < 2 ^ Sv -> m (Sh 1 (Z.of_nat i)) = kpow K w i.
Definition arr (m : pmem K) (i : nat) : K := m (Sh 0 (Z.of_nat i)).
Definition sub_dft (a : nat -> K) (s b j : nat) : K := ksum K (2 ^ s) (fun t => a (t * 2 ^ (p - s) + nrev (p - s) b) *k kpow K w (j * t * 2 ^ (Sv - s))).
Definition inv (a : nat -> K) (s : nat) (m : pmem K) : Prop := forall b j, b < 2 ^ (p - s) -> j < 2 ^ s -> arr m (b * 2 ^ s + j) = sub_dft a s b j.

Lemma sub_dft_step a s b j : s < p -> b < 2 ^ (p - S s) -> j < 2 ^ s ->
  sub_dft a (S s) b j = radd (rmul (kpow K w (j * 2 ^ (Sv - S s))) (sub_dft a s (2 * b + 1) j)) (sub_dft a s (2 * b) j) /\
  sub_dft a (S s) b (j + 2 ^ s) = rsub (sub_dft a s (2 * b) j) (rmul (kpow K w (j * 2 ^ (Sv - S s))) (sub_dft a s (2 * b + 1) j)).
Proof.
  intros Hs Hb Hj. destruct (nrev_hi (p - S s) b Hb) as [R0 R1]. replace (S (p - S s)) with (p - s) in R0, R1 by lia.
  assert (P2 : 2 ^ (p - s) = 2 * 2 ^ (p - S s)) by (rewrite <- Nat.pow_succ_r'; f_equal; lia).
  assert (Q2 : 2 ^ (Sv - s) = 2 * 2 ^ (Sv - S s)) by (rewrite <- Nat.pow_succ_r'; f_equal; lia).
  assert (H2 : 2 ^ s * 2 ^ (Sv - S s) = 2 ^ (Sv - 1)) by (rewrite <- Nat.pow_add_r; f_equal; lia).
  unfold sub_dft. rewrite Nat.pow_succ_r'. rewrite !ksum_split. rewrite R0, R1. rewrite P2, Q2. set (P := 2 ^ (p - S s)) in *. set (Q := 2 ^ (Sv - S s)) in *. set (h := 2 ^ s) in *.
  assert (E0 : forall jj, ksum K h (fun t => a (2 * t * P + nrev (p - S s) b) *k kpow K w (jj * (2 * t) * Q)) = ksum K h (fun t => a (t * (2 * P) + nrev (p - S s) b) *k kpow K w (jj * t * (2 * Q)))).
  { intros jj. apply ksum_ext. intros t _. f_equal; [f_equal; lia|f_equal; lia]. }
  assert (E1 : forall jj, ksum K h (fun t => a ((2 * t + 1) * P + nrev (p - S s) b) *k kpow K w (jj * (2 * t + 1) * Q)) = kpow K w (jj * Q) *k ksum K h (fun t => a (t * (2 * P) + (nrev (p - S s) b + P)) *k kpow K w (jj * t * (2 * Q)))).
  { intros jj. rewrite <- ksum_mul. apply ksum_ext. intros t _. replace ((2 * t + 1) * P + nrev (p - S s) b) with (t * (2 * P) + (nrev (p - S s) b + P)) by lia.
    replace (jj * (2 * t + 1) * Q) with (jj * Q + jj * t * (2 * Q)) by lia. rewrite kpow_add. ring. }
  assert (W1 : kpow K w (h * (2 * Q)) = r1). { replace (h * (2 * Q)) with (h * Q * 2) by lia. rewrite H2, kpow_mul, Hw. cbn. ring. }
  assert (E2 : forall f : nat -> K, ksum K h (fun t => f t *k kpow K w ((j + h) * t * (2 * Q))) = ksum K h (fun t => f t *k kpow K w (j * t * (2 * Q)))).
  { intros f. apply ksum_ext. intros t _. f_equal. replace ((j + h) * t * (2 * Q)) with (j * t * (2 * Q) + h * (2 * Q) * t) by lia. rewrite kpow_add, (kpow_mul K w (h * (2 * Q))), W1, kpow_1. ring. }
  split.
  - rewrite E0, E1. ring.
  - rewrite E0, E1, !E2. replace ((j + h) * Q) with (j * Q + h * Q) by lia. rewrite kpow_add, H2, Hw. ring.
Qed.
Lemma addr_lo h b j : 0 < h -> j < h -> Z.of_nat ((2 * b) * h + j) = lo (Z.of_nat h) (Z.of_nat (b * h + j)) /\ Z.of_nat ((2 * b + 1) * h + j) = (lo (Z.of_nat h) (Z.of_nat (b * h + j)) + Z.of_nat h)%Z.
Proof. intros Hh Hj. replace (Z.of_nat (b * h + j)) with (Z.of_nat b * Z.of_nat h + Z.of_nat j)%Z by lia. rewrite lo_split by lia. lia. Qed.
Lemma stage_ok a s m m' : s < p -> table m -> inv a s m ->
  parfor K nT 0 (2 ^ Z.of_nat (p - 1)) (fft_body K (Z.of_nat Sv) (Z.of_nat (S s))) m m' -> table m' /\ inv a (S s) m' /\ same_tables K m' m /\ (forall k, ~ (0 <= k < 2 ^ Z.of_nat p)%Z -> m' (Sh 0 k) = m (Sh 0 k)).
Proof.
  intros Hs T I H. assert (Hn : (0 < 2 ^ Z.of_nat (p - 1) < 2 ^ 31)%Z) by (split; [apply Z.pow_pos_nonneg; lia|apply Z.pow_lt_mono_r; lia]).
  destruct (fft_loop K nT HT (Z.of_nat Sv) (Z.of_nat (S s)) (2 ^ Z.of_nat (p - 1)) m m' ltac:(lia) Hn H) as (ST & B & O).
  replace (Z.of_nat (S s) - 1)%Z with (Z.of_nat s) in * by lia. rewrite <- !pow2_Z in *. set (h := 2 ^ s) in *. assert (Hh : 0 < h) by apply pow2_pos.
  assert (Pp : 2 ^ (p - 1) = 2 ^ (p - S s) * h) by (unfold h; rewrite <- Nat.pow_add_r; f_equal; lia).
  assert (T' : table m') by (intros i Hi; rewrite ST by lia; apply T, Hi).
  split; [exact T'|]. split; [|split; [exact ST|]].
  - assert (G : forall b j, b < 2 ^ (p - S s) -> j < h -> arr m' ((2 * b) * h + j) = sub_dft a (S s) b j /\ arr m' ((2 * b + 1) * h + j) = sub_dft a (S s) b (j + h)).
    { intros b j Hb Hj. destruct (addr_lo h b j Hh Hj) as [A1 A2]. destruct (sub_dft_step a s b j Hs Hb Hj) as [S1 S2]. fold h in S2. rewrite S1, S2. unfold arr. rewrite A1, A2.
      assert (Hi : (0 <= Z.of_nat (b * h + j) < Z.of_nat (2 ^ (p - 1)))%Z) by nia. destruct (B _ Hi) as [B1 B2]. rewrite B1, B2. rewrite <- A2, <- A1.
      change (m (Sh 0 (Z.of_nat (2 * b * h + j)))) with (arr m (2 * b * h + j)). change (m (Sh 0 (Z.of_nat ((2 * b + 1) * h + j)))) with (arr m ((2 * b + 1) * h + j)).
      assert (P2 : 2 ^ (p - s) = 2 * 2 ^ (p - S s)) by (rewrite <- Nat.pow_succ_r'; f_equal; lia).
      unfold h. rewrite !I by (try exact Hj; lia). fold h.
      assert (MJ : (Z.of_nat (b * h + j) mod Z.of_nat h)%Z = Z.of_nat j). { rewrite Nat2Z.inj_add, Nat2Z.inj_mul, Z.add_comm, Z_mod_plus_full, Z.mod_small by lia. reflexivity. }
      rewrite MJ. assert (RI : w64 (Z.shiftl (Z.of_nat j) (Z.of_nat Sv - Z.of_nat (S s))) = Z.of_nat (j * 2 ^ (Sv - S s))).
      { rewrite Z.shiftl_mul_pow2 by lia. replace (Z.of_nat Sv - Z.of_nat (S s))%Z with (Z.of_nat (Sv - S s)) by lia. rewrite <- pow2_Z, <- Nat2Z.inj_mul. apply w64_small. split; [lia|].
        assert (j * 2 ^ (Sv - S s) < 2 ^ s * 2 ^ (Sv - S s)) by (apply Nat.mul_lt_mono_pos_r; [apply pow2_pos|exact Hj]). rewrite <- Nat.pow_add_r in H0.
        assert (Z.of_nat (2 ^ (s + (Sv - S s))) <= 2 ^ 63)%Z by (rewrite pow2_Z; apply Z.pow_le_mono_r; lia). lia. }
      rewrite RI, T; [split; reflexivity|]. assert (j * 2 ^ (Sv - S s) < 2 ^ s * 2 ^ (Sv - S s)) by (apply Nat.mul_lt_mono_pos_r; [apply pow2_pos|exact Hj]). rewrite <- Nat.pow_add_r in H0.
      assert (2 ^ (s + (Sv - S s)) <= 2 ^ Sv) by (apply Nat.pow_le_mono_r; lia). lia. }
    intros b j Hb Hj. rewrite Nat.pow_succ_r' in *. fold h in Hj |- *. destruct (Nat.lt_ge_cases j h) as [L|L].
    + replace (b * (2 * h) + j) with (2 * b * h + j) by lia. apply G; assumption.
    + replace (b * (2 * h) + j) with ((2 * b + 1) * h + (j - h)) by lia. destruct (G b (j - h) Hb ltac:(lia)) as [_ G2]. rewrite G2. f_equal. lia.
  - intros k Hk. apply O. intros i Hi. unfold lo. pose proof (Z.div_mod i (Z.of_nat h) ltac:(lia)) as DM. pose proof (Z.mod_pos_bound i (Z.of_nat h) ltac:(lia)) as MB.
    assert (Hd : (0 <= i / Z.of_nat h < Z.of_nat (2 ^ (p - S s)))%Z) by (split; [apply Z.div_pos; lia|apply Z.div_lt_upper_bound; lia]).
    assert (PP : 2 ^ p = 2 ^ (p - S s) * (2 * h)) by (unfold h; rewrite <- Nat.pow_succ_r', <- Nat.pow_add_r; f_equal; lia).
    rewrite PP in Hk. set (q := (i / Z.of_nat h)%Z) in *. set (r := (i mod Z.of_nat h)%Z) in *. set (X := 2 ^ (p - S s)) in *. split; intros E; apply Hk; rewrite E; nia.
Qed.
Lemma stages_ok a k : forall s m m', s + k = p -> table m -> inv a s m -> stages K (Z.of_nat Sv) nT (2 ^ Z.of_nat p) k (Z.of_nat (S s)) m m' ->
  table m' /\ inv a p m' /\ same_tables K m' m /\ (forall i, ~ (0 <= i < 2 ^ Z.of_nat p)%Z -> m' (Sh 0 i) = m (Sh 0 i)).
Proof.
  induction k as [|k IH]; intros s m m' Hk T I H; cbn [stages] in H.
  - replace p with s by lia. split; [intros i Hi; rewrite H; apply T, Hi|]. split; [intros b j Hb Hj; unfold arr; rewrite H; apply I; assumption|]. split; [intros x i Hx; apply H|intros; apply H].
  - destruct H as (_ & m1 & H1 & H2). assert (E : Z.shiftr (2 ^ Z.of_nat p) 1 = (2 ^ Z.of_nat (p - 1))%Z).
    { rewrite Z.shiftr_div_pow2 by lia. change (2 ^ 1)%Z with 2%Z. replace (Z.of_nat p) with (Z.succ (Z.of_nat (p - 1))) by lia. rewrite Z.pow_succ_r, Z.mul_comm, Z.div_mul by lia. reflexivity. }
    rewrite E in H1. destruct (stage_ok a s m m1 ltac:(lia) T I H1) as (T1 & I1 & ST1 & O1). replace (Z.of_nat (S s) + 1)%Z with (Z.of_nat (S (S s))) in H2 by lia.
    destruct (IH (S s) m1 m' ltac:(lia) T1 I1 H2) as (T2 & I2 & ST2 & O2). split; [exact T2|]. split; [exact I2|]. split; [eapply same_tables_trans; eassumption|].
    intros i Hi. rewrite O2 by exact Hi. apply O1, Hi.
Qed.
Lemma log2_p : fft_log2 (2 ^ Z.of_nat p) = Some (Z.of_nat p).
Proof.
  rewrite fft_log2_ok; [rewrite Z.log2_pow2 by lia; reflexivity|]. pose proof (Z.pow_pos_nonneg 2 (Z.of_nat p)). split; [lia|]. apply Z.pow_lt_mono_r; lia.
Qed.
Lemma fft_ok m m' : table m -> fft K (Z.of_nat Sv) nT (2 ^ Z.of_nat p) m m' ->
  (forall k, k < 2 ^ p -> arr m' k = dft K (kpow K w (2 ^ (Sv - p))) (2 ^ p) (arr m) k) /\ same_tables K m' m /\ (forall i, ~ (0 <= i < 2 ^ Z.of_nat p)%Z -> m' (Sh 0 i) = m (Sh 0 i)).
Proof.
  intros T (dp & m1 & L & R & _ & St). rewrite log2_p in L. injection L as <-. destruct (rev_loop K nT HT p m m1 Hp R) as (T1 & R1 & O1). rewrite Nat2Z.id in St.
  assert (Tm : table m1) by (intros i Hi; rewrite T1 by lia; apply T, Hi).
  destruct (stages_ok (arr m) p 0 m1 m' ltac:(lia) Tm) as (T2 & I2 & ST2 & O2).
  - intros b j Hb Hj. cbn in Hj. assert (j = 0) by lia. subst j. rewrite Nat.sub_0_r in Hb. unfold sub_dft. rewrite Nat.sub_0_r. cbn [Nat.pow ksum]. rewrite !Nat.mul_0_l. cbn [kpow].
    rewrite Nat.mul_1_r, Nat.add_0_r, Nat.add_0_l. unfold arr, nrev. rewrite R1 by (rewrite <- pow2_Z; lia). pose proof (rev_bound p (Z.of_nat b)). rewrite Z2Nat.id by lia. ring.
  - exact St.
  - split; [|split; [eapply same_tables_trans; eassumption|intros i Hi; rewrite O2 by exact Hi; apply O1, Hi]].
    intros k Hk. specialize (I2 0 k). rewrite Nat.sub_diag in I2. specialize (I2 ltac:(cbn; lia) Hk). cbn [Nat.mul Nat.add] in I2. rewrite I2. unfold sub_dft, dft. rewrite Nat.sub_diag. apply ksum_ext.
    intros t _. cbn [Nat.pow]. f_equal; [f_equal; change (nrev 0 0) with 0; lia|]. rewrite <- kpow_mul. f_equal. lia.
Qed.
Lemma stages_exist k : forall s m, s + k = p -> exists m', stages K (Z.of_nat Sv) nT (2 ^ Z.of_nat p) k (Z.of_nat (S s)) m m'.
Proof.
  induction k as [|k IH]; intros s m Hk; cbn [stages]; [exists m; apply meq_refl|].
  assert (E : Z.shiftr (2 ^ Z.of_nat p) 1 = (2 ^ Z.of_nat (p - 1))%Z).
  { rewrite Z.shiftr_div_pow2 by lia. change (2 ^ 1)%Z with 2%Z. replace (Z.of_nat p) with (Z.succ (Z.of_nat (p - 1))) by lia. rewrite Z.pow_succ_r, Z.mul_comm, Z.div_mul by lia. reflexivity. }
  rewrite E. destruct (parfor_exists K (fft_body K (Z.of_nat Sv) (Z.of_nat (S s))) nT 0 (2 ^ Z.of_nat (p - 1)) m HT) as (m1 & H1); [pose proof (Z.pow_pos_nonneg 2 (Z.of_nat (p - 1))); lia|apply Z.pow_lt_mono_r; lia|].
  destruct (IH (S s) m1 ltac:(lia)) as (m' & H'). exists m'. split; [lia|]. exists m1. split; [exact H1|]. replace (Z.of_nat (S s) + 1)%Z with (Z.of_nat (S (S s))) by lia. exact H'.
Qed.
Lemma fft_exists m : exists m', fft K (Z.of_nat Sv) nT (2 ^ Z.of_nat p) m m'.
Proof.
  destruct (parfor_exists K (rev_body K (Z.of_nat p)) nT 0 (2 ^ Z.of_nat p) m HT) as (m1 & H1); [pose proof (Z.pow_pos_nonneg 2 (Z.of_nat p)); lia|apply Z.pow_lt_mono_r; lia|].
  destruct (stages_exist p 0 m1 ltac:(lia)) as (m' & H'). exists m', (Z.of_nat p), m1. split; [apply log2_p|]. split; [exact H1|]. split; [apply Z.shiftl_1_l|]. rewrite Nat2Z.id. exact H'.
Qed.

(** inverse *)
Variable c : K.
Lemma ifft_ok m m' : 2 <= p -> table m -> m (Sh 2 (Z.of_nat p)) = c -> ifft K (Z.of_nat Sv) nT (2 ^ Z.of_nat p) m m' ->
  (forall k, k < 2 ^ p -> arr m' k = idft K (kpow K w (2 ^ (Sv - p))) (2 ^ p) c (arr m) k) /\ same_tables K m' m /\ (forall i, ~ (0 <= i < 2 ^ Z.of_nat p)%Z -> m' (Sh 0 i) = m (Sh 0 i)).
Proof.
  intros H2 T Hc (dp & m1 & m2 & L & F & I & Fin). rewrite log2_p in L. injection L as <-. destruct (fft_ok m m1 T F) as (D & ST & O).
  set (n := (2 ^ Z.of_nat p)%Z) in *. assert (E : Z.shiftr n 1 = (2 ^ Z.of_nat (p - 1))%Z).
  { unfold n. rewrite Z.shiftr_div_pow2 by lia. change (2 ^ 1)%Z with 2%Z. replace (Z.of_nat p) with (Z.succ (Z.of_nat (p - 1))) by lia. rewrite Z.pow_succ_r, Z.mul_comm, Z.div_mul by lia. reflexivity. }
  assert (En : n = (2 * 2 ^ Z.of_nat (p - 1))%Z) by (unfold n; rewrite <- Z.pow_succ_r by lia; f_equal; lia).
  rewrite E in *. set (h := (2 ^ Z.of_nat (p - 1))%Z) in *. assert (Hh : (2 <= h)%Z) by (change 2%Z with (2 ^ 1)%Z; apply Z.pow_le_mono_r; lia).
  assert (Hh2 : (h < 2 ^ 31)%Z) by (apply Z.pow_lt_mono_r; lia).
  destruct (inv_loop K nT HT n (Z.of_nat p) h m1 m2 ltac:(lia) ltac:(lia) Hh2 I) as (ST2 & C2 & O2).
  assert (C : m2 (Sh 2 (Z.of_nat p)) = c) by (rewrite ST2, ST by lia; exact Hc). assert (C1 : m1 (Sh 2 (Z.of_nat p)) = c) by (rewrite ST by lia; exact Hc). rewrite C1 in C2.
  cbn [prun fold_left] in Fin. rewrite !imul in Fin.
  assert (R : forall q, m' (Sh 0 q) = if (q =? 0)%Z then rmul (m2 (Sh 0 0)) c else if (q =? h)%Z then rmul (m2 (Sh 0 h)) c else m2 (Sh 0 q)).
  { intros q. rewrite Fin. assert (Sh 0 h <> Sh 0 0) by (intros Q; injection Q; lia). destruct (Z.eqb_spec q h) as [->|Nq].
    - destruct (Z.eqb_spec h 0); [lia|]. rewrite pset_same. rewrite !(pset_other _ m2) by congruence. rewrite C. reflexivity.
    - rewrite pset_other by congruence. destruct (Z.eqb_spec q 0) as [->|N0]; [rewrite pset_same, C; reflexivity|]. rewrite pset_other by congruence. reflexivity. }
  assert (X : forall k, (0 <= k < n)%Z -> m' (Sh 0 k) = rmul (m1 (Sh 0 (if (k =? 0)%Z then 0%Z else (n - k)%Z))) c).
  { intros k Hk. rewrite R. destruct (Z.eqb_spec k 0) as [->|N0]; [rewrite O2 by lia; reflexivity|]. destruct (Z.eqb_spec k h) as [->|Nh]; [rewrite O2 by lia; replace (n - h)%Z with h by lia; reflexivity|]. apply C2. lia. }
  split; [|split].
  - intros k Hk. unfold arr at 1. assert (Hn : Z.of_nat (2 ^ p) = n) by apply pow2_Z. rewrite X by lia. unfold idft. destruct (Nat.eq_dec k 0) as [->|N].
    + cbn [Z.of_nat Z.eqb]. change (m1 (Sh 0 0)) with (arr m1 0). rewrite D by apply pow2_pos. reflexivity.
    + destruct (Z.eqb_spec (Z.of_nat k) 0); [lia|]. replace (n - Z.of_nat k)%Z with (Z.of_nat (2 ^ p - k)) by lia. change (m1 (Sh 0 (Z.of_nat (2 ^ p - k)))) with (arr m1 (2 ^ p - k)). rewrite D by lia. reflexivity.
  - intros a i Na. rewrite Fin. rewrite !pset_other by congruence. rewrite ST2, ST by exact Na. reflexivity.
  - intros i Hi. rewrite R. destruct (Z.eqb_spec i 0); [lia|]. destruct (Z.eqb_spec i h); [lia|]. rewrite O2 by lia. apply O, Hi.
Qed.
Lemma ifft_exists m : 2 <= p -> exists m', ifft K (Z.of_nat Sv) nT (2 ^ Z.of_nat p) m m'.
Proof.
  intros H2. destruct (fft_exists m) as (m1 & H1). assert (E : Z.shiftr (2 ^ Z.of_nat p) 1 = (2 ^ Z.of_nat (p - 1))%Z).
  { rewrite Z.shiftr_div_pow2 by lia. change (2 ^ 1)%Z with 2%Z. replace (Z.of_nat p) with (Z.succ (Z.of_nat (p - 1))) by lia. rewrite Z.pow_succ_r, Z.mul_comm, Z.div_mul by lia. reflexivity. }
  destruct (parfor_exists K (inv_body K (2 ^ Z.of_nat p) (Z.of_nat p)) nT 1 (Z.shiftr (2 ^ Z.of_nat p) 1) m1 HT) as (m2 & Hm2).
  { rewrite E. assert (2 ^ 1 <= 2 ^ Z.of_nat (p - 1))%Z by (apply Z.pow_le_mono_r; lia). lia. } { rewrite E. apply Z.pow_lt_mono_r; lia. }
  eexists. exists (Z.of_nat p), m1, m2. split; [apply log2_p|]. split; [exact H1|]. split; [exact Hm2|apply meq_refl].
Qed.
End Stages.
