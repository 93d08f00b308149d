(** The constructor as a whole, and fft/ifft on an object it has built. *)
From Coq Require Import ZArith Znumtheory Zpow_facts List Bool Lia Ring Arith.
From Verif Require Import NumTheory Multiexp MultiexpFacts MsmFacts Tower Zp PolyRoots Par ParFacts ParOwn Threads ThreadsFacts Fft FftFacts FftAlg FftFacts2 FftCtor FftCtorFacts.
Import ListNotations.
Open Scope Z_scope.
Ltac Zify.zify_post_hook ::= idtac.

Section Top.
Variable q : Z.
Hypothesis Hq : 1 < q.
Hypothesis P : prime q.
Hypothesis H2 : 2 < q.
Notation K := (Zp q Hq).
Add Ring Kr : (r_th K).
Notation "x *k y" := (rmul x y) (at level 40, left associativity).
Variables (nT maxD : Z).
Hypothesis HT : 1 <= nT < 2 ^ 31.
Hypothesis HD : 1 <= maxD < 2 ^ 63.
Definition dp : Z := Z.log2 maxD.
Lemma dp_bound : 0 <= dp <= 62.
Proof. unfold dp. split; [apply Z.log2_nonneg|]. assert (Z.log2 maxD < 63) by (apply Z.log2_lt_pow2; lia). lia. Qed.
Lemma log2_dp : fft_log2 maxD = Some dp. Proof. apply fft_log2_ok. lia. Qed.
Lemma nqr_small fuel y : nqr_search q fuel 2 = Some y -> 2 <= y < q /\ powm q y ((q - 1) / 2) <> 1.
Proof.
  intros H. apply nqr_sound in H. destruct H as (A & B & C). split; [|exact B]. split; [exact A|]. destruct (nqr_exists q Hq P H2) as (x & Hx & Nx).
  destruct (Z.lt_ge_cases y q) as [L|L]; [exact L|]. exfalso. apply Nx. apply (C x). lia.
Qed.
Lemma two_ne : radd r1 r1 <> (r0 : K).
Proof. intros E. apply (f_equal zv) in E. change ((1 mod q + 1 mod q) mod q = 0 mod q) in E. rewrite (Z.mod_small 1), Z.mod_0_l, Z.mod_small in E by lia. lia. Qed.
Lemma root_ok nqr s aux : 2 <= nqr < q -> powm q nqr ((q - 1) / 2) <> 1 -> 1 <= s -> 0 < aux -> q - 1 = aux * 2 ^ s ->
  kpow K (tozp q Hq (powm q nqr aux)) (2 ^ (Z.to_nat s - 1)) = ropp r1.
Proof.
  intros Hn Nn Hs Ha E. rewrite powm_kpow by lia. rewrite <- kpow_mul. replace (Z.to_nat aux * 2 ^ (Z.to_nat s - 1))%nat with (Z.to_nat ((q - 1) / 2)).
  - apply half_power; [exact P|exact H2|exact Nn|]. rewrite Z.mod_small by lia. lia.
  - apply Nat2Z.inj. rewrite Nat2Z.inj_mul, pow2_Z, !Z2Nat.id by (try apply Z.div_pos; lia). replace (Z.of_nat (Z.to_nat s - 1)) with (s - 1) by lia. rewrite E. replace s with (Z.succ (s - 1)) at 1 by lia. rewrite Z.pow_succ_r by lia.
    replace (aux * (2 * 2 ^ (s - 1))) with (aux * 2 ^ (s - 1) * 2) by ring. apply Z.div_mul. lia.
Qed.
Lemma half_ok : rmul (radd r1 r1) (tozp q Hq (zinv q 2) : K) = (r1 : K).
Proof.
  destruct (Zp_field q Hq P) as [_ F]. assert (N2 : tozp q Hq 2 <> (r0 : K)) by (intros E; apply (f_equal zv) in E; change (2 mod q = 0 mod q) in E; rewrite Z.mod_small, Z.mod_0_l in E; lia).
  specialize (F (tozp q Hq 2) N2). change (rinv (tozp q Hq 2 : K)) with (tozp q Hq (zinv q (2 mod q))) in F. rewrite (Z.mod_small 2) in F by lia.
  replace (radd r1 r1 : K) with (tozp q Hq 2 : K); [exact F|]. apply zp_eq. change (2 mod q = (1 mod q + 1 mod q) mod q). rewrite (Z.mod_small 1) by lia. reflexivity.
Qed.
Lemma knat_pow i : knat K (2 ^ i) = kpow K (radd r1 r1) i.
Proof.
  assert (A : forall a b, knat K (a + b) = radd (knat K a) (knat K b)) by (induction a as [|a IH]; intros b; cbn [knat Nat.add]; [ring|rewrite IH; ring]).
  induction i as [|i IH]; [cbn [Nat.pow knat kpow]; ring|]. rewrite Nat.pow_succ_r'. cbn [kpow]. rewrite <- IH. replace (2 * 2 ^ i)%nat with (2 ^ i + 2 ^ i)%nat by lia. rewrite A. ring.
Qed.
(** what a constructed object holds *)
Definition tables (s : nat) (w : K) (m : pmem K) : Prop :=
  kpow K w (2 ^ (s - 1)) = ropp r1 /\ (forall i, (i < 2 ^ s)%nat -> m (Sh 1 (Z.of_nat i)) = kpow K w i) /\ (forall i, (i <= s)%nat -> knat K (2 ^ i) *k m (Sh 2 (Z.of_nat i)) = r1).
Theorem ctor_tables fuel m s m' : ctor q Hq fuel nT maxD m (Done q Hq s m') ->
  (2 ^ dp | q - 1) /\ s = Z.max 1 dp /\ (exists w, tables (Z.to_nat s) w m') /\ forall i, m' (Sh 0 i) = m (Sh 0 i).
Proof.
  pose proof dp_bound as DB. intros H. inversion H as [|dp' nqr s' aux m1 m2 L N T Ds S63 E1 B A]; subst. rewrite log2_dp in L. injection L as <-.
  destruct (nqr_small fuel nqr N) as [Nb Np]. destruct (two_adic_div q Hq dp s aux P H2 ltac:(lia) T) as (Sb & E & Ap & Dv).
  assert (Es : s = Z.max 1 dp) by lia. split; [apply Dv, Ds|]. split; [exact Es|]. set (w := tozp q Hq (powm q nqr aux)) in *.
  set (m1 := pset _ (Sh 2 1) _) in B. rewrite Z.shiftl_1_l in *. assert (P2 : 2 <= 2 ^ s <= 2 ^ 62) by (split; [change 2 with (2 ^ 1) at 1|]; apply Z.pow_le_mono_r; lia).
  destruct (fill_block q Hq w (2 ^ s) nT m1 m2 P2 HT) as [R O]; [unfold m1; rewrite !pset_other by discriminate; apply pset_same|unfold m1; rewrite pset_other by discriminate; apply pset_same|exact B|].
  set (h := tozp q Hq (zinv q 2)) in *.
  assert (h1 : m2 (Sh 2 1) = h) by (rewrite O by discriminate; unfold m1; apply pset_same). assert (h0 : m2 (Sh 2 0) = r1) by (rewrite O by discriminate; unfold m1; rewrite !(pset_other _ _ _ _ (Sh 2 0)) by discriminate; apply pset_same).
  destruct (halves_ok q Hq (Z.to_nat (s - 1)) 2 m2 ltac:(lia)) as (V1 & V2 & V3).
  { intros i Hi. assert (i = 0 \/ i = 1) as [-> | ->] by lia; [rewrite h0; reflexivity|]. rewrite pw1. reflexivity. }
  fold (halves_code q Hq s) in V1, V2, V3. rewrite h1 in *. split.
  - exists w. split; [apply root_ok; lia || assumption|]. split.
    + intros i Hi. rewrite V3 by discriminate. rewrite R; [rewrite Nat2Z.id; reflexivity|]. assert (Z.of_nat (2 ^ Z.to_nat s) = 2 ^ s) by (rewrite pow2_Z, Z2Nat.id by lia; reflexivity). lia.
    + intros i Hi. rewrite V2 by lia. rewrite Nat2Z.id, knat_pow, <- kpow_base. pose proof half_ok as HO. fold h in HO. rewrite HO. apply kpow_1.
  - intros i. rewrite V3, O by discriminate. unfold m1. rewrite !pset_other by discriminate. reflexivity.
Qed.
Theorem ctor_throw fuel m : ctor q Hq fuel nT maxD m (Throws q Hq) -> ~ (2 ^ dp | q - 1).
Proof.
  pose proof dp_bound as DB. intros H D. inversion H as [dp' nqr L N T|]; subst. rewrite log2_dp in L. injection L as <-. destruct (two_adic 64 dp 1 ((q - 1) / 2)) as [s aux] eqn:E. cbn [fst] in T.
  destruct (two_adic_div q Hq dp s aux P H2 ltac:(lia) E) as (_ & _ & _ & Dv). apply Dv in D. lia.
Qed.
Lemma nqr_found : exists nqr, nqr_search q (Z.to_nat q) 2 = Some nqr.
Proof. destruct (nqr_exists q Hq P H2) as (x & Hx & Nx). apply (nqr_total q x); [lia|exact Nx|lia]. Qed.
Lemma nqr_more f f' a y : nqr_search q f a = Some y -> (f <= f')%nat -> nqr_search q f' a = Some y.
Proof.
  revert a f'. induction f as [|f IH]; intros a f' H L; destruct f' as [|f']; try lia; cbn [nqr_search] in *; try exact H; destruct (negb _); try exact H; [discriminate|]. apply IH; [exact H|lia].
Qed.
Theorem ctor_exists m fuel : (Z.to_nat q <= fuel)%nat -> exists o, ctor q Hq fuel nT maxD m o.
Proof.
  pose proof dp_bound as DB. intros Hf. destruct nqr_found as (nqr & N). apply (nqr_more _ fuel) in N; [|exact Hf]. destruct (two_adic 64 dp 1 ((q - 1) / 2)) as [s aux] eqn:E.
  destruct (two_adic_div q Hq dp s aux P H2 ltac:(lia) E) as (Sb & Eq & Ap & Dv). destruct (Z.lt_ge_cases s dp) as [L|L].
  - exists (Throws q Hq). eapply ctor_throws; [apply log2_dp|exact N|]. rewrite E. exact L.
  - assert (P2 : 2 <= 2 ^ s <= 2 ^ 62) by (split; [change 2 with (2 ^ 1) at 1|]; apply Z.pow_le_mono_r; lia). set (w := tozp q Hq (powm q nqr aux)).
    set (m1 := pset (pset (pset (pset m (Sh 1 0) (r1 : K)) (Sh 2 0) r1) (Sh 1 1) w) (Sh 2 1) (tozp q Hq (zinv q 2))).
    set (l := concat (map (fun c => fill_code q Hq (Z.shiftl 1 s) (fst c) (snd c)) (parallelBlock_calls nT))).
    assert (B : parblock K nT (fill_code q Hq (Z.shiftl 1 s)) m1 (prun l m1)) by (exists l; split; [apply inter_concat|apply meq_refl]).
    eexists. eapply ctor_done; [apply log2_dp|exact N|exact E|exact L|lia|reflexivity|exact B|].
    rewrite Z.shiftl_1_l in *. destruct (fill_block q Hq w (2 ^ s) nT m1 (prun l m1) P2 HT) as [R _]; [unfold m1; rewrite !pset_other by discriminate; apply pset_same|unfold m1; rewrite pset_other by discriminate; apply pset_same|exact B|].
    rewrite !R by lia. rewrite pw1. assert (X : kpow K w (Z.to_nat (2 ^ s - 1) + 1) = r1).
    { replace (Z.to_nat (2 ^ s - 1) + 1)%nat with (2 ^ (S (Z.to_nat s - 1)))%nat; [apply root_n, root_ok; try lia; apply (nqr_small fuel nqr N)|].
      apply Nat2Z.inj. rewrite pow2_Z. replace (Z.of_nat (S (Z.to_nat s - 1))) with s by lia. lia. }
    rewrite kpow_add in X. rewrite <- X. cbn [kpow]. ring.
Qed.
End Top.
