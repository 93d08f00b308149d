(** All rows of the AArch64 Montgomery multiplication. *)
From Coq Require Import ZArith List Bool Lia.
From Verif Require Import Limbs Arm ArmFacts ArmRaw ArmCmp ArmZero ArmChain ArmMulChain ArmMulAB ArmMulRow.
Import ListNotations.
Open Scope Z_scope.

Lemma mont0 np y r : (np * y + 1) mod B = 0 -> (r + mv false y ((np * r) mod B)) mod B = 0.
Proof.
  intros H. cbn [mv]. rewrite Zplus_mod_idemp_r, Zplus_mod, Zmult_mod_idemp_r, <- Zplus_mod.
  replace (r + y * (np * r)) with (r * (np * y + 1)) by ring. now rewrite <- Zmult_mod_idemp_r, H, Z.mul_0_r.
Qed.

(** the numbers: [S] is the running sum after [k] rows *)
Lemma step_num S S' P b q x X M u B' : 0 <= x < B' -> 0 <= u < B' -> 0 < P ->
  P * S = X * b + M * q -> 0 <= M < P -> B' * S' = S + b * x + q * u ->
  P * B' * S' = (X + x * P) * b + (M + u * P) * q /\ 0 <= M + u * P < P * B'.
Proof. intros Hx Hu HP H1 HM H2. split; [replace (P * B' * S') with (P * (B' * S')) by ring; rewrite H2; nia|nia]. Qed.
Lemma sum_lt S P b q X M : 0 <= X < P -> 0 <= M < P -> 0 <= b < q -> P * S = X * b + M * q -> S < 2 * q.
Proof. intros. nia. Qed.

Section Loop.
  Variables (lay : sym -> Z) (n : nat) (r1 : list reg) (bo qo : opr).
  Hypothesis Hn : (0 < n)%nat.
  Hypothesis Hchk : chkRow n r1 bo qo = true.
  Let wAll := wAll r1 bo qo.
  Definition rowf (opt : bool) (w : nat) : list instr :=
    [Ldr 3 1 (off w)] ++
    (if Nat.eqb w 0 then flat_map (abbody r1 bo 3%nat) (seq 0 n) ++ (if Nat.ltb 1 n then [Adc (ix r1 n) (ix r1 n) 31] else [])
     else if opt then lp1 n r1 bo ++ [Adc (ix r1 n) 31 31] ++ [Adds (ix r1 1) (ix r1 1) 5] ++ lp2 n r1 bo ALast
     else lp1 n r1 bo ++ [Adcs (ix r1 n) 31 8] ++ [Adc 8 31 31] ++ lp2 n r1 bo AFresh ++ [Adc 8 8 31]) ++
    [Mul 5 4 (ix r1 0)] ++
    (if opt then lq1 n r1 qo ++ [Adc (ix r1 n) (ix r1 n) 31] ++ lq2 n r1 qo ++ (if negb (Nat.ltb w (n - 1)) then [] else [Adc 5 31 31])
     else lq1 n r1 qo ++ [Adcs (ix r1 n) (ix r1 n) 31] ++ [if Nat.eqb w 0 then Adc 8 31 31 else Adc 8 8 31] ++ lq2 n r1 qo ++ [Adc 8 8 31]).

  Variables (opt : bool) (m0 : mach) (x y z : nat -> Z) (p np : Z).
  Let b := sm y n. Let q := sm z n.
  Hypothesis Sb : source n bo y m0.
  Hypothesis Sq : source n qo z m0.
  Hypothesis Bx : forall j, (j < n)%nat -> 0 <= x j < B.
  Hypothesis X1 : xr m0 1 = p.
  Hypothesis Rx : room m0 p n.
  Hypothesis Mx : forall j, (j < n)%nat -> mem m0 (p + off j) = x j.
  Hypothesis X4 : xr m0 4 = np.
  Hypothesis Hnp : (np * z 0%nat + 1) mod B = 0.
  Hypothesis Hbq : b < q.
  Hypothesis Hopt : opt = true -> 2 * q <= B ^ Z.of_nat n.

  Definition top (m : mach) : Z := if opt then 0 else xr m 8.
  Definition tot (m : mach) : Z := shv n r1 m + top m * B ^ Z.of_nat n.
  Definition rowInv (w : nat) (m : mach) : Prop :=
    only wAll m0 m /\
    ((0 < w)%nat -> rb n r1 m /\ 0 <= top m <= 1 /\ (opt = true -> (w < n)%nat -> xr m 5 = 0) /\
      exists M, 0 <= M < B ^ Z.of_nat w /\ B ^ Z.of_nat w * tot m = sm x w * b + M * q).

  Let PB : 0 < B. Proof. reflexivity. Qed.
  Let Pn : 0 < B ^ Z.of_nat n. Proof. apply Z.pow_pos_nonneg; [reflexivity|lia]. Qed.
  Let b0 : 0 <= b. Proof. destruct Sb as [H _]. pose proof (sm_bound y n H). unfold b. lia. Qed.
  Let qB : q < B ^ Z.of_nat n. Proof. destruct Sq as [H _]. pose proof (sm_bound z n H). unfold q. lia. Qed.

  Lemma row_add w m : (w < n)%nat -> rowInv w m ->
    exists m2, exec lay ([Ldr 3 1 (off w)] ++
      (if Nat.eqb w 0 then flat_map (abbody r1 bo 3%nat) (seq 0 n) ++ (if Nat.ltb 1 n then [Adc (ix r1 n) (ix r1 n) 31] else [])
       else if opt then lp1 n r1 bo ++ [Adc (ix r1 n) 31 31] ++ [Adds (ix r1 1) (ix r1 1) 5] ++ lp2 n r1 bo ALast
       else lp1 n r1 bo ++ [Adcs (ix r1 n) 31 8] ++ [Adc 8 31 31] ++ lp2 n r1 bo AFresh ++ [Adc 8 8 31])) m = Some m2 /\
      only wAll m0 m2 /\ rb n r1 m2 /\ exists h S M, (opt = true -> h = 0) /\ 0 <= h <= 1 /\ (opt = false -> Nat.eqb w 0 = false -> xr m2 8 = h) /\ (Nat.eqb w 0 = true -> h = 0) /\
        0 <= S < 2 * q /\ val n r1 m2 + h * B ^ Z.of_nat (Datatypes.S n) = S + b * x w /\ 0 <= M < B ^ Z.of_nat w /\ B ^ Z.of_nat w * S = sm x w * b + M * q.
  Proof.
    intros Hw [O I].
    pose proof (Bx w Hw) as Hx.
    assert (N1 : ~ In 1%nat wAll) by (apply (dep_x n r1 bo qo Hchk); cbn; auto).
    assert (E1 : step lay (Ldr 3 1 (off w)) m = Some (wr m 3 (x w))).
    { rewrite (ldr_x lay 3%nat 1%nat m p n w); auto.
      - destruct O as [(-> & _) _]. now rewrite Mx.
      - destruct O as [_ K]. rewrite K; auto.
      - destruct O as [Sm _]. exact (same_room _ _ _ _ Sm Rx). }
    set (m1 := wr m 3 (x w)) in *.
    cbn [app]. rewrite (exec_cons _ _ _ _ _ E1).
    assert (O1 : only wAll m0 m1).
    { apply (only_trans _ _ m _ O). apply only_wr. unfold wAll, ArmMulRow.wAll. cbn; auto. }
    assert (S1 : source n bo y m1) by (apply (src_keep n bo y wAll m0); auto; apply (dep_b n r1 bo qo Hchk)).
    assert (X3 : xr m1 3 = x w) by (apply xr_eq; lia).
    assert (Np : forall w, 0 < B ^ Z.of_nat w) by (intros; apply Z.pow_pos_nonneg; [reflexivity|lia]).
    destruct (Nat.eqb_spec w 0) as [->|Nw].
    - destruct (ab_ok n r1 bo 3%nat lay m1 y (x 0%nat) Hn (f_ab _ _ _ _ (facts_ok n r1 bo qo Hchk)) S1 X3 Hx) as (m2 & E2 & Sm2 & K2 & R2 & V2).
      exists m2. split; [exact E2|]. split.
      { apply (only_trans _ _ m1 _ O1). split; [exact Sm2|]. intros t Ht. apply K2.
        apply (inclb_ok _ _ (f_abi _ _ _ _ (facts_ok n r1 bo qo Hchk))). intros I2. apply Ht, inA, I2. }
      split; [exact R2|]. exists 0, 0, 0. unfold val. rewrite V2. change (B ^ Z.of_nat 0) with 1. cbn [sm]. fold b.
      repeat split; auto; try lia; try discriminate.
    - destruct (I ltac:(lia)) as (Rb & Tp & Z5 & M & HM & HS).
      assert (K : forall t, t <> 3%nat -> xr m1 t = xr m t) by (intros; apply xr_ne; auto).
      assert (R1 : rb n r1 m1).
      { intros j Hj. rewrite K; [apply Rb, Hj|]. apply (rspec n r1 bo qo Hn Hchk); cbn; auto. }
      assert (V1 : shv n r1 m1 = shv n r1 m).
      { unfold shv. apply sm_ext. intros j Hj. apply K. apply (rspec n r1 bo qo Hn Hchk); [lia|cbn; auto]. }
      assert (Sb1 : 0 <= shv n r1 m) by (apply (sm_bound (fun j => xr m (ix r1 (j + 1))) n); intros j Hj; apply Rb; lia).
      pose proof (sm_bound x w ltac:(intros; apply Bx; lia)) as Xw.
      assert (T2 : 0 <= tot m < 2 * q).
      { split; [unfold tot; nia|]. apply (sum_lt (tot m) (B ^ Z.of_nat w) b q (sm x w) M); auto. }
      destruct opt eqn:Eo.
      + destruct (addmul_t lay n r1 bo qo Hn Hchk m1 y (x w) R1 S1 X3 Hx) as (m2 & E2 & O2 & R2 & V2).
        { rewrite K by discriminate. auto. }
        { rewrite V1. fold b. unfold tot, top in T2. rewrite Eo in T2. rewrite Nat2Z.inj_succ, Z.pow_succ_r by lia. pose proof (Hopt eq_refl) as Ho. pose proof (Z.mul_le_mono_nonneg b (q - 1) (x w) (B - 1) ltac:(lia) ltac:(lia) ltac:(lia) ltac:(lia)).
          pose proof (Z.mul_le_mono_nonneg_r (2 * q) (B ^ Z.of_nat n) B ltac:(lia) Ho). assert (q <= q * B) by nia. lia. }
        exists m2. split; [exact E2|]. split; [apply (only_trans _ _ m1 _ O1), (only_weak _ _ _ _ (inA r1 bo qo) O2)|]. split; [exact R2|].
        exists 0, (tot m), M. repeat split; auto; try lia; try discriminate. rewrite V2, V1. fold b. unfold tot, top. rewrite Eo. lia.
      + destruct (addmul_f lay n r1 bo qo Hn Hchk m1 y (x w) (top m) R1 S1 X3 Hx) as (m2 & E2 & O2 & R2 & H2 & V2); auto.
        { rewrite K by discriminate. unfold top. now rewrite Eo. }
        exists m2. split; [exact E2|]. split; [apply (only_trans _ _ m1 _ O1), (only_weak _ _ _ _ (inA r1 bo qo) O2)|]. split; [exact R2|].
        exists (xr m2 8), (tot m), M. repeat split; auto; try lia; try discriminate. rewrite V2, V1. fold b. unfold tot. lia.
  Qed.

  Lemma row_ok w m : (w < n)%nat -> rowInv w m -> exists m', exec lay (rowf opt w) m = Some m' /\ rowInv (S w) m'.
  Proof.
    intros Hw I. pose proof (Bx w Hw) as Hx. destruct (row_add w m Hw I) as (m2 & E2 & O2 & R2 & h & S & M & Ho & Hh & H8 & Hw0 & HS & HV & HM & HE).
    unfold rowf. rewrite app_assoc, (exec_app _ _ _ _ _ E2).
    assert (N4 : ~ In 4%nat wAll) by (apply (dep_x n r1 bo qo Hchk); cbn; auto).
    set (u := (np * xr m2 (ix r1 0)) mod B).
    set (m3 := wr m2 5 u).
    assert (E3 : step lay (Mul 5 4 (ix r1 0)) m2 = Some m3).
    { cbn [step]. unfold m3, u. do 3 f_equal. destruct O2 as [_ K]. rewrite K; auto. now rewrite X4. }
    cbn [app]. rewrite (exec_cons _ _ _ _ _ E3).
    assert (Hu : 0 <= u < B) by (apply Z.mod_pos_bound; reflexivity).
    assert (O3 : only wAll m0 m3) by (apply (only_trans _ _ m2 _ O2), only_wr; unfold wAll, ArmMulRow.wAll; cbn; auto).
    assert (S3 : source n qo z m3) by (apply (src_keep n qo z wAll m0); auto; apply (dep_q n r1 bo qo Hchk)).
    assert (K : forall t, t <> 5%nat -> xr m3 t = xr m2 t) by (intros; apply xr_ne; auto).
    assert (K1 : forall j, (j <= n)%nat -> xr m3 (ix r1 j) = xr m2 (ix r1 j)) by (intros j Hj; apply K, (rspec n r1 bo qo Hn Hchk); [lia|cbn; auto]).
    assert (R3 : rb n r1 m3) by (intros j Hj; rewrite K1 by auto; apply R2, Hj).
    assert (V3 : val n r1 m3 = val n r1 m2) by (unfold val; apply sm_ext; intros j Hj; apply K1; lia).
    assert (X5 : xr m3 5 = u) by (apply xr_eq; lia).
    assert (PS : B ^ Z.of_nat (Datatypes.S n) = B * B ^ Z.of_nat n) by (rewrite Nat2Z.inj_succ, Z.pow_succ_r by lia; reflexivity).
    assert (Pw : 0 < B ^ Z.of_nat w) by (apply Z.pow_pos_nonneg; [reflexivity|lia]).
    assert (PSw : B ^ Z.of_nat (Datatypes.S w) = B ^ Z.of_nat w * B) by (rewrite Nat2Z.inj_succ, Z.pow_succ_r by lia; ring).
    assert (Fin : forall m4, only wAll m3 m4 -> rb n r1 m4 -> 0 <= top m4 -> val n r1 m4 + top m4 * B ^ Z.of_nat (Datatypes.S n) = S + b * x w + q * u ->
      xr m4 (ix r1 0) = (xr m3 (ix r1 0) + mv false (z 0%nat) u) mod B -> (opt = true -> (Datatypes.S w < n)%nat -> xr m4 5 = 0) -> rowInv (Datatypes.S w) m4).
    { intros m4 O4 R4 T4 V4 Z4 F4. split; [exact (only_trans _ _ m3 _ O3 O4)|]. intros _. split; [exact R4|].
      rewrite K1 in Z4 by lia. unfold u in Z4. rewrite mont0 in Z4 by exact Hnp.
      assert (Q : B * tot m4 = S + b * x w + q * u).
      { unfold tot. rewrite <- V4, (val_sh n r1 Hn m4), Z4, PS. ring. }
      destruct (step_num S (tot m4) (B ^ Z.of_nat w) b q (x w) (sm x w) M u B Hx Hu Pw HE HM Q) as [Q1 Q2].
      assert (Sv : 0 <= shv n r1 m4) by (apply (sm_bound (fun j => xr m4 (ix r1 (j + 1))) n); intros j Hj; apply R4; lia).
      assert (T2 : tot m4 < 2 * q) by nia.
      split; [unfold tot in T2; nia|]. split; [exact F4|]. exists (M + u * B ^ Z.of_nat w). rewrite PSw. split; [exact Q2|]. cbn [sm]. rewrite Q1. ring. }
    destruct opt eqn:Eo.
    - assert (h = 0) as -> by auto.
      destruct (mulq_t lay n r1 bo qo Hn Hchk (negb (Nat.ltb w (n - 1))) m3 z u R3 S3 X5 Hu) as (m4 & E4 & O4 & R4 & V4 & F4 & Z4).
      { rewrite V3, PS. fold q. pose proof (Hopt eq_refl) as Ho'. pose proof (Z.mul_le_mono_nonneg b (q - 1) (x w) (B - 1) ltac:(lia) ltac:(lia) ltac:(lia) ltac:(lia)).
        pose proof (Z.mul_le_mono_nonneg_l u (B - 1) q ltac:(lia) ltac:(lia)). pose proof (Z.mul_le_mono_nonneg_r (2 * q) (B ^ Z.of_nat n) B ltac:(lia) Ho'). lia. }
      exists m4. split; [exact E4|]. apply Fin; auto.
      + unfold top. rewrite Eo. lia.
      + unfold top. rewrite Eo, V4, V3. fold q. lia.
      + intros _ Hl. apply F4. apply negb_false_iff, Nat.ltb_lt. lia.
    - destruct (mulq_f lay n r1 bo qo Hn Hchk (Nat.eqb w 0) m3 z u h R3 S3 X5 Hu) as (m4 & E4 & O4 & R4 & H4 & V4 & Z4); [intros H; rewrite K by discriminate; auto|auto|auto|].
      exists m4. split; [exact E4|]. apply Fin; auto; try discriminate.
      + apply (only_weak _ _ _ _ (inQ r1 bo qo) O4).
      + unfold top. rewrite Eo. lia.
      + unfold top. rewrite Eo, V4, V3. fold q. lia.
  Qed.

  Lemma rows_ok : exists m', exec lay (flat_map (rowf opt) (seq 0 n)) m0 = Some m' /\ only wAll m0 m' /\ rb n r1 m' /\ 0 <= top m' <= 1 /\ 0 <= tot m' < 2 * q /\
    exists M, B ^ Z.of_nat n * tot m' = sm x n * b + M * q.
  Proof.
    destruct (exec_loop lay (rowf opt) rowInv n m0 row_ok) as (m' & E & O & I).
    { split; [apply only_refl|lia]. }
    destruct (I Hn) as (Rb & Tp & _ & M & HM & HE).
    assert (Sv : 0 <= shv n r1 m') by (apply (sm_bound (fun j => xr m' (ix r1 (j + 1))) n); intros j Hj; apply Rb; lia).
    exists m'. split; [exact E|]. split; [exact O|]. split; [exact Rb|]. split; [exact Tp|]. split; [split|].
    - unfold tot. nia.
    - apply (sum_lt (tot m') (B ^ Z.of_nat n) b q (sm x n) M); auto. apply sm_bound, Bx.
    - exists M. exact HE.
  Qed.
End Loop.
