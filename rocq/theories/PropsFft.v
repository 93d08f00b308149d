(** Properties C38-C41: FFT and parallel loops. *)
From Coq Require Import ZArith Znumtheory List Bool Lia Arith.
From Verif Require Import NumTheory Instances Primes Multiexp MultiexpFacts MsmFacts Tower Zp PolyRoots Par ParFacts ParOwn Threads ThreadsFacts Fft FftFacts FftAlg FftFacts2 FftCtor FftCtorFacts FftCtorFacts2.
Import ListNotations.
Open Scope Z_scope.
Ltac Zify.zify_post_hook ::= idtac.

(** w is a primitive n-th root of unity *)
Definition primitive (K : rng) (w : K) (n : nat) : Prop := kpow K w n = r1 /\ forall d, (0 < d < n)%nat -> kpow K w d <> r1.
(** cell i of the transformed array *)
Definition vec {K : rng} (m : pmem K) (i : nat) : K := m (Sh 0 (Z.of_nat i)).

Lemma primitive_pow q Hq (P : prime q) (H2 : 2 < q) (w : Zp q Hq) p : kpow (Zp q Hq) w (2 ^ p) = ropp r1 -> primitive (Zp q Hq) w (2 ^ S p).
Proof.
  intros H. split; [apply root_n, H|]. intros d Hd. apply (order (Zp q Hq) (two_ne q Hq H2) w p); assumption.
Qed.
Lemma sub_root q Hq (w : Zp q Hq) s p : (1 <= p <= s)%nat -> kpow (Zp q Hq) w (2 ^ (s - 1)) = ropp r1 -> kpow (Zp q Hq) (kpow (Zp q Hq) w (2 ^ (s - p))) (2 ^ (p - 1)) = ropp r1.
Proof. intros Hp H. rewrite <- kpow_mul, <- Nat.pow_add_r. replace (s - p + (p - 1))%nat with (s - 1)%nat by lia. exact H. Qed.

(** ** C40 *)
(** an object for domains up to maxDomainSize, built over Z/q with nT threads,
    in a memory m; [fuel] bounds the search for a non-residue *)
Theorem C40_ctor : forall q Hq, prime q -> 2 < q -> forall nT maxDomainSize m, 1 <= nT < 2 ^ 31 -> 1 <= maxDomainSize < 2 ^ 63 ->
  let k := Z.log2 maxDomainSize in
  (* construction comes to an end *)
  (forall fuel, (Z.to_nat q <= fuel)%nat -> exists o, ctor q Hq fuel nT maxDomainSize m o) /\
  (* it throws only if q - 1 is not divisible by the domain size, and otherwise fills the tables *)
  (forall fuel, ctor q Hq fuel nT maxDomainSize m (Throws q Hq) -> ~ (2 ^ k | q - 1)) /\
  (forall fuel s m', ctor q Hq fuel nT maxDomainSize m (Done q Hq s m') -> (2 ^ k | q - 1) /\ s = Z.max 1 k /\
    exists w, primitive (Zp q Hq) w (2 ^ Z.to_nat s) /\ (forall i, (i < 2 ^ Z.to_nat s)%nat -> m' (Sh 1 (Z.of_nat i)) = kpow (Zp q Hq) w i) /\
      (forall i, (i <= Z.to_nat s)%nat -> rmul (knat (Zp q Hq) (2 ^ i)) (m' (Sh 2 (Z.of_nat i))) = r1) /\ forall i, m' (Sh 0 i) = m (Sh 0 i)).
Proof.
  intros q Hq P H2 nT D m HT HD k. split; [|split].
  - intros fuel. apply ctor_exists; assumption.
  - intros fuel. apply ctor_throw; assumption.
  - intros fuel s m' H. destruct (ctor_tables q Hq P H2 nT D HT HD fuel m s m' H) as (A & B & (w & W & T1 & T2) & O). split; [exact A|]. split; [exact B|]. exists w.
    split; [|split; [exact T1|split; [exact T2|exact O]]]. replace (Z.to_nat s) with (Datatypes.S (Z.to_nat s - 1)) by lia. apply primitive_pow; assumption.
Qed.
Print Assumptions C40_ctor.
(** Z/17, domain size 8, three threads *)
Lemma gt17 : 1 < 17. Proof. reflexivity. Qed.
Lemma prime_17 : prime 17. Proof. apply trial_prime; vm_compute; reflexivity. Qed.
Notation Z17 := (Zp 17 gt17).
Definition run_block (K : rng) nT (code : Z -> Z -> list (instr K)) (m : pmem K) : pmem K := prun (concat (map (fun c => code (fst c) (snd c)) (parallelBlock_calls nT))) m.
Definition m17 : pmem Z17 := fun _ => tozp 17 gt17 5.
Definition t17 : pmem Z17 := pset (pset (pset (pset m17 (Sh 1 0) (r1 : Z17)) (Sh 2 0) (r1 : Z17)) (Sh 1 1) (tozp 17 gt17 (powm 17 3 2))) (Sh 2 1) (tozp 17 gt17 (zinv 17 2)).
Definition mc17 : pmem Z17 := prun (halves_code 17 gt17 3) (run_block Z17 3 (fill_code 17 gt17 8) t17).
Lemma C40_ex_run : ctor 17 gt17 5 3 8 m17 (Done 17 gt17 3 mc17).
Proof.
  eapply ctor_done with (dp := 3) (nqr := 3) (aux := 2); try reflexivity; try lia; [|apply zp_eq; vm_compute; reflexivity].
  exists (concat (map (fun c => fill_code 17 gt17 8 (fst c) (snd c)) (parallelBlock_calls 3))). split; [apply inter_concat|apply meq_refl].
Qed.
Example C40_ex : map (fun i => zv (mc17 (Sh 1 i))) (zrange 0 8) = [1; 9; 13; 15; 16; 8; 4; 2] /\ map (fun i => zv (mc17 (Sh 2 i))) (zrange 0 4) = [1; 9; 13; 15].
Proof. split; vm_compute; reflexivity. Qed.
Example C40_throws : ctor 17 gt17 5 3 32 m17 (Throws 17 gt17).
Proof. eapply ctor_throws with (dp := 5) (nqr := 3); reflexivity. Qed.
(** with as many threads as roots, thread 1 writes roots[1] while thread 2
    reads it: a data race (of equal values) *)
Theorem C40_race_refuted : exists nR nT : Z, let c th := fill_code 17 gt17 nR th nT in
  exists x y, In x (c 1) /\ In y (c 2) /\ dst x = Sh 1 1 /\ In (Sh 1 1) (srcs y).
Proof. exists 4, 4. cbn zeta. eexists; eexists. split; [right; left; reflexivity|]. split; [left; reflexivity|]. split; [reflexivity|left; reflexivity]. Qed.
(** in characteristic 2 the search never ends *)
Theorem C40_q2_refuted : forall fuel, nqr_search 2 fuel 2 = None.
Proof. intros fuel. destruct (nqr_search 2 fuel 2) as [y|] eqn:E; [|reflexivity]. exfalso. apply nqr_sound in E. destruct E as (_ & E & _). apply E. reflexivity. Qed.

(** ** C38 *)
Theorem C38_fft_partial : forall q Hq, prime q -> 2 < q -> forall fuel nT maxDomainSize m0 S mc, 1 <= nT < 2 ^ 31 -> 1 <= maxDomainSize < 2 ^ 63 ->
  ctor q Hq fuel nT maxDomainSize m0 (Done q Hq S mc) ->
  forall p, (p <= 30)%nat -> Z.of_nat p <= S ->
  exists w, primitive (Zp q Hq) w (2 ^ p) /\ forall m, same_tables (Zp q Hq) m mc ->
    (exists m', fft (Zp q Hq) S nT (2 ^ Z.of_nat p) m m') /\
    (forall m', fft (Zp q Hq) S nT (2 ^ Z.of_nat p) m m' ->
      (forall k, (k < 2 ^ p)%nat -> vec m' k = ksum (Zp q Hq) (2 ^ p) (fun j => rmul (vec m j) (kpow (Zp q Hq) w (j * k)))) /\
      same_tables (Zp q Hq) m' mc /\ forall i, ~ 0 <= i < 2 ^ Z.of_nat p -> m' (Sh 0 i) = m (Sh 0 i)).
Proof.
  intros q Hq P H2 fuel nT D m0 S mc HT HD H p Hp Hs. destruct (ctor_tables q Hq P H2 nT D HT HD fuel m0 S mc H) as (_ & Es & (w & W & T1 & _) & _).
  assert (Sb : 1 <= S <= 62) by (pose proof (dp_bound D HD); lia). assert (E : Z.of_nat (Z.to_nat S) = S) by lia.
  exists (kpow (Zp q Hq) w (2 ^ (Z.to_nat S - p))). split.
  - destruct p as [|p]; [split; [|intros; cbn in *; lia]|apply primitive_pow; try assumption; replace p with (Datatypes.S p - 1)%nat at 2 by lia; apply sub_root; [lia|exact W]].
    rewrite Nat.sub_0_r. replace (Z.to_nat S) with (Datatypes.S (Z.to_nat S - 1)) by lia. rewrite <- kpow_mul. rewrite Nat.mul_1_r. apply root_n, W.
  - intros m ST. assert (T : table (Zp q Hq) (Z.to_nat S) w m) by (intros i Hi; rewrite ST by lia; apply T1, Hi). split.
    + rewrite <- E. apply fft_exists; [exact HT|exact Hp|lia|lia].
    + intros m' F. rewrite <- E in F. destruct (fft_ok (Zp q Hq) (Z.to_nat S) p w nT HT Hp ltac:(lia) ltac:(lia) W m m' T F) as (A & B & C).
      split; [exact A|]. split; [eapply same_tables_trans; eassumption|exact C].
Qed.
Print Assumptions C38_fft_partial.
(** sizes that do not fit an int *)
Lemma big_calls nT p : (31 <= p <= 63)%nat -> parallelFor_calls nT 0 (2 ^ Z.of_nat p) = None.
Proof.
  intros Hp. unfold parallelFor_calls. assert (E : s32 (2 ^ Z.of_nat p) <= 0 /\ - 2 ^ 31 <= s32 (2 ^ Z.of_nat p)).
  { assert (A : forall k, (k < 33)%nat -> s32 (2 ^ Z.of_nat (31 + k)) <= 0 /\ - 2 ^ 31 <= s32 (2 ^ Z.of_nat (31 + k))).
    { intros k Hk. do 33 (destruct k as [|k]; [vm_compute; split; discriminate|]). lia. }
    replace p with (31 + (p - 31))%nat by lia. apply A. lia. }
  change (s32 0) with 0. rewrite Z.sub_0_r. destruct (_ || _); [reflexivity|]. unfold divideWork. destruct (Z.leb_spec (s32 (2 ^ Z.of_nat p)) 0); [reflexivity|lia].
Qed.
Theorem C38_large : forall (K : rng) S nT p m m', (31 <= p <= 63)%nat -> ~ fft K S nT (2 ^ Z.of_nat p) m m'.
Proof. intros K S nT p m m' Hp (dp & m1 & _ & (calls & l & E & _) & _). rewrite big_calls in E by exact Hp. discriminate. Qed.
(** ... although the constructor accepts them: the one-limb prime 2^64-2^32+1 *)
Lemma gt_gold : 1 < gold_q. Proof. reflexivity. Qed.
Theorem C38_large_refuted : exists q Hq maxDomainSize, prime q /\ maxDomainSize = 2 ^ 31 /\ forall nT m0, 1 <= nT < 2 ^ 31 ->
  (exists fuel S mc, ctor q Hq fuel nT maxDomainSize m0 (Done q Hq S mc)) /\ forall S m m', ~ fft (Zp q Hq) S nT maxDomainSize m m'.
Proof.
  exists gold_q, gt_gold, (2 ^ 31). split; [exact gold_prime|]. split; [reflexivity|]. intros nT m0 HT. split.
  - destruct (ctor_exists gold_q gt_gold gold_prime ltac:(reflexivity) nT (2 ^ 31) HT ltac:(lia) m0 (Z.to_nat gold_q) ltac:(lia)) as ([|S mc] & H).
    + exfalso. eapply ctor_throw in H; [|exact gold_prime|reflexivity|lia]. apply H. exists (2 * (2 ^ 32 - 1)). reflexivity.
    + exists (Z.to_nat gold_q), S, mc. exact H.
  - intros S m m'. apply (C38_large _ S nT 31). lia.
Qed.
Print Assumptions C38_large_refuted.
(** four elements of Z/17 on two threads *)
Definition run_for (K : rng) nT b e body (m : pmem K) : pmem K := match parallelFor_calls nT b e with Some calls => prun (concat (map (job_code K body) calls)) m | None => m end.
Lemma run_for_ok (K : rng) nT b e body (m : pmem K) : parallelFor_calls nT b e <> None -> parfor K nT b e body m (run_for K nT b e body m).
Proof. unfold run_for. intros H. destruct (parallelFor_calls nT b e) as [calls|] eqn:E; [|congruence]. exists calls, (concat (map (job_code K body) calls)). split; [exact E|]. split; [apply inter_concat|apply meq_refl]. Qed.
Definition a17 : pmem Z17 := fun a => match a with Sh 0 i => tozp 17 gt17 (i * i + 2) | _ => mc17 a end.
Definition f17 : pmem Z17 := run_for Z17 2 0 2 (fft_body Z17 3 2) (run_for Z17 2 0 2 (fft_body Z17 3 1) (run_for Z17 2 0 4 (rev_body Z17 2) a17)).
Lemma f17_run : fft Z17 3 2 4 a17 f17.
Proof.
  exists 2, (run_for Z17 2 0 4 (rev_body Z17 2) a17). split; [reflexivity|]. split; [apply run_for_ok; discriminate|]. split; [reflexivity|].
  split; [lia|]. eexists. split; [apply run_for_ok; discriminate|]. split; [lia|]. eexists. split; [apply run_for_ok; discriminate|]. apply meq_refl.
Qed.
Example C38_ex : ctor 17 gt17 5 3 8 m17 (Done 17 gt17 3 mc17) /\ same_tables Z17 a17 mc17 /\ map (fun i => zv (a17 (Sh 0 i))) (zrange 0 4) = [2; 3; 6; 11] /\
  map (fun i => zv (f17 (Sh 0 i))) (zrange 0 4) = [5; 11; 11; 15].
Proof. split; [exact C40_ex_run|]. split; [intros [|a] i N; [congruence|reflexivity]|]. split; vm_compute; reflexivity. Qed.

(** ** C39 *)
Theorem C39_ifft_partial : forall q Hq, prime q -> 2 < q -> forall fuel nT maxDomainSize m0 S mc, 1 <= nT < 2 ^ 31 -> 1 <= maxDomainSize < 2 ^ 63 ->
  ctor q Hq fuel nT maxDomainSize m0 (Done q Hq S mc) ->
  forall p m, (2 <= p <= 30)%nat -> Z.of_nat p <= S -> same_tables (Zp q Hq) m mc -> let n := 2 ^ Z.of_nat p in
  (exists m1 m2, fft (Zp q Hq) S nT n m m1 /\ ifft (Zp q Hq) S nT n m1 m2) /\ (exists m1 m2, ifft (Zp q Hq) S nT n m m1 /\ fft (Zp q Hq) S nT n m1 m2) /\
  (forall m1 m2, fft (Zp q Hq) S nT n m m1 -> ifft (Zp q Hq) S nT n m1 m2 -> (forall i, m2 (Sh 0 i) = m (Sh 0 i)) /\ same_tables (Zp q Hq) m2 mc) /\
  (forall m1 m2, ifft (Zp q Hq) S nT n m m1 -> fft (Zp q Hq) S nT n m1 m2 -> (forall i, m2 (Sh 0 i) = m (Sh 0 i)) /\ same_tables (Zp q Hq) m2 mc).
Proof.
  intros q Hq P H2 fuel nT D m0 S mc HT HD H p m Hp Hs ST n. destruct (ctor_tables q Hq P H2 nT D HT HD fuel m0 S mc H) as (_ & Es & (w & W & T1 & T2) & _).
  assert (Sb : 1 <= S <= 62) by (pose proof (dp_bound D HD); lia). rewrite <- (Z2Nat.id S) in * by lia. set (s := Z.to_nat S) in *. rewrite Nat2Z.id in *.
  set (K := Zp q Hq) in *. set (v := kpow K w (2 ^ (s - p))). set (c := mc (Sh 2 (Z.of_nat p))). assert (V : kpow K v (2 ^ (p - 1)) = ropp r1) by (apply sub_root; [lia|exact W]).
  assert (Cc : rmul (knat K (2 ^ p)) c = r1) by (apply T2; lia). assert (F : is_field K) by apply (Zp_field q Hq P). assert (N2 : radd r1 r1 <> (r0 : K)) by apply (two_ne q Hq H2).
  assert (TT : forall m, same_tables K m mc -> table K s w m /\ m (Sh 2 (Z.of_nat p)) = c) by (intros mm ST'; split; [intros i Hi; rewrite ST' by lia; apply T1, Hi|apply ST'; lia]).
  assert (Hn : n = Z.of_nat (2 ^ p)) by (symmetry; apply pow2_Z). assert (Ep : (2 ^ p = 2 ^ Datatypes.S (p - 1))%nat) by (f_equal; lia).
  destruct (TT m ST) as [Tm Cm]. split; [|split; [|split]].
  - destruct (fft_exists K s p nT HT ltac:(lia) ltac:(lia) ltac:(lia) m) as [m1 F1]. destruct (ifft_exists K s p nT HT ltac:(lia) ltac:(lia) ltac:(lia) m1 ltac:(lia)) as [m2 F2]. exists m1, m2. split; assumption.
  - destruct (ifft_exists K s p nT HT ltac:(lia) ltac:(lia) ltac:(lia) m ltac:(lia)) as [m1 F1]. destruct (fft_exists K s p nT HT ltac:(lia) ltac:(lia) ltac:(lia) m1) as [m2 F2]. exists m1, m2. split; assumption.
  - intros m1 m2 F1 F2. destruct (fft_ok K s p w nT HT ltac:(lia) ltac:(lia) ltac:(lia) W m m1 Tm F1) as (A1 & B1 & C1).
    assert (ST1 : same_tables K m1 mc) by (eapply same_tables_trans; eassumption). destruct (TT m1 ST1) as [Tm1 Cm1].
    destruct (ifft_ok K s p w nT HT ltac:(lia) ltac:(lia) ltac:(lia) W c m1 m2 ltac:(lia) Tm1 Cm1 F2) as (A2 & B2 & C2). split; [|eapply same_tables_trans; eassumption].
    intros i. destruct (Z_lt_ge_dec i 0) as [L|L]; [rewrite C2, C1 by lia; reflexivity|]. destruct (Z_lt_ge_dec i n) as [L2|L2]; [|rewrite C2, C1 by (unfold n in *; lia); reflexivity].
    rewrite <- (Z2Nat.id i) by lia. change (arr K m2 (Z.to_nat i) = arr K m (Z.to_nat i)). rewrite A2 by lia. fold v. fold v in A1.
    transitivity (idft K v (2 ^ p) c (dft K v (2 ^ p) (arr K m)) (Z.to_nat i)); [|rewrite Ep in *; apply idft_dft; try assumption; lia].
    unfold idft. f_equal. apply ksum_ext. intros j Hj. f_equal. apply A1. exact Hj.
  - intros m1 m2 F1 F2. destruct (ifft_ok K s p w nT HT ltac:(lia) ltac:(lia) ltac:(lia) W c m m1 ltac:(lia) Tm Cm F1) as (A1 & B1 & C1).
    assert (ST1 : same_tables K m1 mc) by (eapply same_tables_trans; eassumption). destruct (TT m1 ST1) as [Tm1 Cm1].
    destruct (fft_ok K s p w nT HT ltac:(lia) ltac:(lia) ltac:(lia) W m1 m2 Tm1 F2) as (A2 & B2 & C2). split; [|eapply same_tables_trans; eassumption].
    intros i. destruct (Z_lt_ge_dec i 0) as [L|L]; [rewrite C2, C1 by lia; reflexivity|]. destruct (Z_lt_ge_dec i n) as [L2|L2]; [|rewrite C2, C1 by (unfold n in *; lia); reflexivity].
    rewrite <- (Z2Nat.id i) by lia. change (arr K m2 (Z.to_nat i) = arr K m (Z.to_nat i)). rewrite A2 by lia. fold v. fold v in A1.
    transitivity (dft K v (2 ^ p) (idft K v (2 ^ p) c (arr K m)) (Z.to_nat i)); [|rewrite Ep in *; apply dft_idft; try assumption; lia].
    apply ksum_ext. intros j Hj. f_equal. apply A1. exact Hj.
Qed.
Print Assumptions C39_ifft_partial.
(** one and two elements: the loop over [1, n/2) is empty, which parallelFor rejects *)
Theorem C39_small_refuted : forall (K : rng) S nT n m m', n = 1 \/ n = 2 -> ~ ifft K S nT n m m'.
Proof. intros K S nT n m m' Hn (dp & m1 & m2 & _ & _ & (calls & l & E & _) & _). destruct Hn as [-> | ->]; discriminate. Qed.
Print Assumptions C39_small_refuted.
Definition i17 : pmem Z17 := prun [Imul Z17 (Sh 0 0) (Sh 0 0) (Sh 2 2); Imul Z17 (Sh 0 2) (Sh 0 2) (Sh 2 2)] (run_for Z17 2 1 2 (inv_body Z17 4 2)
  (run_for Z17 2 0 2 (fft_body Z17 3 2) (run_for Z17 2 0 2 (fft_body Z17 3 1) (run_for Z17 2 0 4 (rev_body Z17 2) f17)))).
Example C39_ex : ifft Z17 3 2 4 f17 i17 /\ map (fun i => zv (i17 (Sh 0 i))) (zrange 0 4) = [2; 3; 6; 11].
Proof.
  split; [|vm_compute; reflexivity]. exists 2. eexists. eexists. split; [reflexivity|]. split; [|split; [apply run_for_ok; discriminate|apply meq_refl]].
  exists 2. eexists. split; [reflexivity|]. split; [apply run_for_ok; discriminate|]. split; [reflexivity|].
  split; [lia|]. eexists. split; [apply run_for_ok; discriminate|]. split; [lia|]. eexists. split; [apply run_for_ok; discriminate|]. apply meq_refl.
Qed.
