(** All rows of the AArch64 rawMMul1 and rawFromMontgomery. *)
From Coq Require Import ZArith List Bool Lia.
From Verif Require Import Limbs Arm ArmFacts ArmRaw ArmCmp ArmZero ArmChain ArmMulChain ArmMulAB ArmMulRow ArmMulLoop ArmMulRow1.
Import ListNotations.
Open Scope Z_scope.

Lemma step1_num S S' P q T M u B' : 0 <= u < B' -> 0 < P ->
  P * S = T + M * q -> 0 <= M < P -> B' * S' = S + q * u ->
  P * B' * S' = T + (M + u * P) * q /\ 0 <= M + u * P < P * B'.
Proof. intros Hu HP H1 HM H2. split; [replace (P * B' * S') with (P * (B' * S')) by ring; rewrite H2; nia|nia]. Qed.

Lemma tf (b : bool) : b = true \/ b = false.
Proof. destruct b; auto. Qed.

Section Loop1.
  Variables (lay : sym -> Z) (n : nat) (r1 : list reg) (bo qo : opr).
  Hypothesis Hn : (0 < n)%nat.
  Hypothesis Hchk : chkRow n r1 bo qo = true.
  Hypothesis Hchk1 : msafes n (fun i => ix (cyclicCopy [7; 3]%nat n) i) (fun i => ix r1 (i + 1)) (fun i => ix r1 i) qo 5%nat = true.
  Let wAll := wAll r1 bo qo.
  Definition fin1 (opt : bool) (w : nat) : bool := opt && negb (Nat.ltb w (n - 1)).
  Definition row1f (opt : bool) (w : nat) : list instr :=
    [Mul 5 4 (ix r1 (if Nat.eqb w 0 then 0%nat else 1%nat))] ++
    (if Nat.eqb w 0 then lq1 n r1 qo ++ [Adc (ix r1 n) (ix r1 n) 31] ++ lq2 n r1 qo ++ (if fin1 opt w then [] else [Adc 8 31 31])
     else if opt then lr1 n r1 qo ++ [Adc (ix r1 n) 31 31] ++ [Adds (ix r1 1) (ix r1 1) 8] ++ lq2 n r1 qo ++ (if fin1 opt w then [] else [Adc 8 31 31])
     else lr1 n r1 qo ++ [Adcs (ix r1 n) 31 8] ++ [Adc 8 31 31] ++ lq2 n r1 qo ++ [Adc 8 8 31]).

  Variables (opt : bool) (m0 : mach) (z : nat -> Z) (T np : Z).
  Let q := sm z n.
  Hypothesis Sq : source n qo z m0.
  Hypothesis R0 : rb n r1 m0.
  Hypothesis V0 : val n r1 m0 = T.
  Hypothesis X4 : xr m0 4 = np.
  Hypothesis Hnp : (np * z 0%nat + 1) mod B = 0.
  Hypothesis HT : 0 <= T <= (q - 1) * (B - 1).
  Hypothesis Hopt : opt = true -> 2 * q <= B ^ Z.of_nat n.

  Let top := top opt. Let tot := tot n r1 opt.
  Definition rowInv1 (w : nat) (m : mach) : Prop :=
    only wAll m0 m /\ rb n r1 m /\ (w = 0%nat -> val n r1 m = T) /\
    ((0 < w)%nat -> 0 <= top m <= 1 /\ (opt = true -> (w < n)%nat -> xr m 8 = 0) /\
      exists M, 0 <= M < B ^ Z.of_nat w /\ B ^ Z.of_nat w * tot m = T + M * q).

  Let PB : 1 < B. Proof. reflexivity. Qed.
  Let Pn : 0 < B ^ Z.of_nat n. Proof. apply Z.pow_pos_nonneg; [reflexivity|lia]. Qed.
  Let q0 : 0 < q. Proof. nia. Qed.
  Let qB : q < B ^ Z.of_nat n. Proof. destruct Sq as [H _]. pose proof (sm_bound z n H). unfold q. lia. Qed.
  Let PS : B ^ Z.of_nat (S n) = B * B ^ Z.of_nat n. Proof. rewrite Nat2Z.inj_succ, Z.pow_succ_r by lia. reflexivity. Qed.

  Lemma tot_lt w m M : (0 < w)%nat -> 0 <= M < B ^ Z.of_nat w -> B ^ Z.of_nat w * tot m = T + M * q -> tot m < 2 * q.
  Proof.
    intros Hw HM HE. assert (BP : B <= B ^ Z.of_nat w).
    { replace w with (S (w - 1)) by lia. rewrite Nat2Z.inj_succ, Z.pow_succ_r by lia.
      pose proof (Z.pow_pos_nonneg B (Z.of_nat (w - 1)) ltac:(lia) ltac:(lia)). nia. }
    set (P := B ^ Z.of_nat w) in *. assert (T < q * P) by nia. nia.
  Qed.

  Lemma row1_ok w m : (w < n)%nat -> rowInv1 w m -> exists m', exec lay (row1f opt w) m = Some m' /\ rowInv1 (S w) m'.
  Proof.
    intros Hw (O & Rb & I0 & I). unfold row1f.
    assert (N4 : ~ In 4%nat wAll) by (apply (dep_x n r1 bo qo Hchk); cbn; auto).
    set (k := if Nat.eqb w 0 then 0%nat else 1%nat).
    set (u := (np * xr m (ix r1 k)) mod B).
    set (m3 := wr m 5 u).
    assert (E3 : step lay (Mul 5 4 (ix r1 k)) m = Some m3).
    { cbn [step]. unfold m3, u. do 3 f_equal. destruct O as [_ K]. rewrite K; auto. now rewrite X4. }
    cbn [app]. rewrite (exec_cons _ _ _ _ _ E3).
    assert (Hu : 0 <= u < B) by (apply Z.mod_pos_bound; reflexivity).
    assert (O3 : only wAll m0 m3) by (apply (only_trans _ _ m _ O), only_wr; unfold wAll, ArmMulRow.wAll; cbn; auto).
    assert (S3 : source n qo z m3) by (apply (src_keep n qo z wAll m0); auto; apply (dep_q n r1 bo qo Hchk)).
    assert (K : forall t, t <> 5%nat -> xr m3 t = xr m t) by (intros; apply xr_ne; auto).
    assert (K1 : forall j, (j <= n)%nat -> xr m3 (ix r1 j) = xr m (ix r1 j)) by (intros j Hj; apply K, (rspec n r1 bo qo Hn Hchk); [lia|cbn; auto]).
    assert (R3 : rb n r1 m3) by (intros j Hj; rewrite K1 by auto; apply Rb, Hj).
    assert (V3 : val n r1 m3 = val n r1 m) by (unfold val; apply sm_ext; intros j Hj; apply K1; lia).
    assert (H3 : shv n r1 m3 = shv n r1 m) by (unfold shv; apply sm_ext; intros j Hj; apply K1; lia).
    assert (X5 : xr m3 5 = u) by (apply xr_eq; lia).
    assert (Pw : 0 < B ^ Z.of_nat w) by (apply Z.pow_pos_nonneg; [reflexivity|lia]).
    assert (PSw : B ^ Z.of_nat (S w) = B ^ Z.of_nat w * B) by (rewrite Nat2Z.inj_succ, Z.pow_succ_r by lia; ring).
    assert (Fin : forall m4 Sm M, only (wQ r1 bo qo) m3 m4 -> rb n r1 m4 -> 0 <= top m4 -> B ^ Z.of_nat w * Sm = T + M * q -> 0 <= M < B ^ Z.of_nat w ->
      val n r1 m4 + top m4 * B ^ Z.of_nat (S n) = Sm + q * u ->
      xr m4 (ix r1 0) = (xr m (ix r1 k) + mv false (z 0%nat) u) mod B -> (opt = true -> (S w < n)%nat -> xr m4 8 = 0) -> rowInv1 (S w) m4).
    { intros m4 Sm M O4 R4 T4 HE HM V4 Z4 F4. split; [exact (only_trans _ _ m3 _ O3 (only_weak _ _ _ _ (inQ r1 bo qo) O4))|]. split; [exact R4|]. split; [discriminate|]. intros _.
      unfold u in Z4. rewrite mont0 in Z4 by exact Hnp.
      assert (Q : B * tot m4 = Sm + q * u).
      { unfold tot, ArmMulLoop.tot. fold top. rewrite <- V4, (val_sh n r1 Hn m4), Z4, PS. ring. }
      destruct (step1_num Sm (tot m4) (B ^ Z.of_nat w) q T M u B Hu Pw HE HM Q) as [Q1 Q2].
      rewrite <- PSw in Q1, Q2.
      assert (Sv : 0 <= shv n r1 m4) by (apply (sm_bound (fun j => xr m4 (ix r1 (j + 1))) n); intros j Hj; apply R4; lia).
      pose proof (tot_lt (S w) m4 (M + u * B ^ Z.of_nat w) ltac:(lia) Q2 Q1) as T2.
      split; [unfold tot, ArmMulLoop.tot in T2; fold top in T2; nia|]. split; [exact F4|]. exists (M + u * B ^ Z.of_nat w). split; [exact Q2|exact Q1]. }
    assert (Hqu : 0 <= q * u <= q * (B - 1)) by nia.
    destruct (Nat.eqb_spec w 0) as [->|Nw].
    - assert (Tn : xr m (ix r1 n) < B - 1).
      { specialize (I0 eq_refl). rewrite val_top in I0. pose proof (sm_bound (fun j => xr m (ix r1 j)) n ltac:(intros j Hj; apply Rb; lia)). nia. }
      destruct (first_ok lay n r1 bo qo Hn Hchk (fin1 opt 0) m3 z u R3 S3 X5 Hu) as (m4 & E4 & O4 & R4 & Z4 & c & Hc & Xc & Q4).
      { rewrite K1 by lia. exact Tn. }
      rewrite V3, (I0 eq_refl) in Q4. fold q in Q4. rewrite (K1 0%nat) in Z4 by lia.
      assert (Vp : 0 <= val n r1 m4) by (apply sm_bound; intros j Hj; apply R4; lia).
      exists m4. split; [exact E4|].
      destruct (tf opt) as [Eo|Eo].
      + assert (c = 0) as -> by (specialize (Hopt Eo); rewrite PS in Q4; nia).
        apply (Fin m4 T 0); auto; unfold top, ArmMulLoop.top; rewrite ?Eo; try (change (B ^ Z.of_nat 0) with 1); try lia.
        intros _ Hl. apply Xc. unfold fin1. rewrite ?Eo. cbn [andb]. apply negb_false_iff, Nat.ltb_lt. lia.
      + assert (xr m4 8 = c) as X8 by (apply Xc; unfold fin1; rewrite Eo; reflexivity).
        apply (Fin m4 T 0); auto; unfold top, ArmMulLoop.top; rewrite ?Eo; try (change (B ^ Z.of_nat 0) with 1); try lia; try (intros; congruence).
    - destruct (I ltac:(lia)) as (Tp & Z8 & M & HM & HE). pose proof (tot_lt w m M ltac:(lia) HM HE) as T2.
      assert (Sv : 0 <= shv n r1 m) by (apply (sm_bound (fun j => xr m (ix r1 (j + 1))) n); intros j Hj; apply Rb; lia).
      unfold k in *.
      destruct (tf opt) as [Eo|Eo]; rewrite Eo.
      + assert (Et : tot m = shv n r1 m) by (unfold tot, ArmMulLoop.tot, ArmMulLoop.top; rewrite Eo; lia). rewrite Et in HE, T2.
        destruct (next_t lay n r1 bo qo Hn Hchk Hchk1 (fin1 opt w) m3 z u R3 S3 X5 Hu) as (m4 & E4 & O4 & R4 & Z4 & c & Hc & Xc & Q4).
        { rewrite K by discriminate. auto. }
        rewrite H3 in Q4. fold q in Q4. rewrite (K1 1%nat) in Z4 by lia.
        assert (Vp : 0 <= val n r1 m4) by (apply sm_bound; intros j Hj; apply R4; lia).
        assert (c = 0) as -> by (specialize (Hopt Eo); rewrite PS in Q4; nia).
        exists m4. rewrite Eo in E4, Xc. split; [exact E4|].
        apply (Fin m4 (shv n r1 m) M); auto; unfold top, ArmMulLoop.top; rewrite ?Eo; try lia.
        intros _ Hl. apply Xc. unfold fin1. rewrite ?Eo. cbn [andb]. apply negb_false_iff, Nat.ltb_lt. lia.
      + destruct (next_f lay n r1 bo qo Hn Hchk Hchk1 m3 z u (top m) R3 S3 X5 Hu) as (m4 & E4 & O4 & R4 & Z4 & Hc & Q4); auto.
        { rewrite K by discriminate. unfold top, ArmMulLoop.top. rewrite Eo. reflexivity. }
        rewrite H3 in Q4. fold q in Q4. rewrite (K1 1%nat) in Z4 by lia.
        exists m4. split; [exact E4|].
        assert (Tx : top m4 = xr m4 8) by (unfold top, ArmMulLoop.top; rewrite Eo; reflexivity).
        apply (Fin m4 (tot m) M); auto; rewrite ?Tx; try lia; try (intros; congruence). exact Q4.
  Qed.

  Lemma rows1_ok : exists m', exec lay (flat_map (row1f opt) (seq 0 n)) m0 = Some m' /\ only wAll m0 m' /\ rb n r1 m' /\ 0 <= top m' <= 1 /\ 0 <= tot m' < 2 * q /\
    exists M, B ^ Z.of_nat n * tot m' = T + M * q.
  Proof.
    destruct (exec_loop lay (row1f opt) rowInv1 n m0 row1_ok) as (m' & E & O & Rb & _ & I).
    { split; [apply only_refl|]. split; [exact R0|]. split; [intros _; exact V0|lia]. }
    destruct (I Hn) as (Tp & _ & M & HM & HE).
    assert (Sv : 0 <= shv n r1 m') by (apply (sm_bound (fun j => xr m' (ix r1 (j + 1))) n); intros j Hj; apply Rb; lia).
    exists m'. split; [exact E|]. split; [exact O|]. split; [exact Rb|]. split; [exact Tp|]. split; [split|].
    - unfold tot, ArmMulLoop.tot. fold top. nia.
    - exact (tot_lt n m' M Hn HM HE).
    - exists M. exact HE.
  Qed.
End Loop1.
