(** The rows of the AArch64 rawMMul1 and rawFromMontgomery, which only add multiples of q. *)
From Coq Require Import ZArith List Bool Lia.
From Verif Require Import Limbs Arm ArmFacts ArmRaw ArmCmp ArmZero ArmChain ArmMulChain ArmMulAB ArmMulRow ArmMulLoop.
Import ListNotations.
Open Scope Z_scope.

Section Row1.
  Variables (lay : sym -> Z) (n : nat) (r1 : list reg) (bo qo : opr).
  Let r (i : nat) := ix r1 i. Let sr (i : nat) := ix r1 (i + 1). Let t73 (i : nat) := ix (cyclicCopy [7; 3]%nat n) i.
  Let wQ := wQ r1 bo qo. Let wAll := wAll r1 bo qo. Let rb := rb n r1. Let val := val n r1. Let shv := shv n r1.
  Hypothesis Hn : (0 < n)%nat.
  Hypothesis Hchk : chkRow n r1 bo qo = true.
  Hypothesis Hchk1 : msafes n t73 sr r qo 5%nat = true.
  Let F := facts_ok n r1 bo qo Hchk.
  Definition lr1 := flat_map (mbody false false AFresh n t73 sr r qo 5%nat) (seq 0 n).

  Lemma lr1_ok m y a : rb m -> source n qo y m -> xr m 5 = a -> 0 <= a < B ->
    exists m', exec lay lr1 m = Some m' /\ only wQ m m' /\ rb m' /\ xr m' 8 = xr m 8 /\
      sm (fun j => xr m' (ix r1 j)) n + b2z (fC m') * B ^ Z.of_nat n = shv m + sm (fun j => mv false (y j) a) n /\
      xr m' (ix r1 0) = (xr m (ix r1 1) + mv false (y 0%nat) a) mod B.
  Proof.
    intros Hb Sy Ha Ba.
    destruct (mchain_ok false false AFresh n t73 sr r qo 5%nat lay m (fun j => xr m (sr j)) y a Hn Hchk1) as (m' & E & Sm & K & R & co & Hc & Cc & Q); auto.
    { intros j Hj. split; [reflexivity|]. apply Hb. lia. }
    assert (Kn : xr m' (ix r1 n) = xr m (ix r1 n)) by (apply K, (f_k3 _ _ _ _ F); right; left; reflexivity).
    assert (Rb : rb m') by (intros j Hj; destruct (Nat.eq_dec j n) as [->|N]; [rewrite Kn; apply Hb; lia|apply R; lia]).
    assert (Q' : sm (fun j => xr m' (ix r1 j)) n + b2z (fC m') * B ^ Z.of_nat n = sm (fun j => xr m (ix r1 (j + 1))) n + sm (fun j => mv false (y j) a) n).
    { rewrite <- Cc by discriminate. unfold r, sr in Q. rewrite Q. cbn [c_in Nat.eqb]. lia. }
    exists m'. split; [exact E|]. split; [split; [exact Sm|]; intros t Ht; apply K, (inclb_ok _ _ (f_q1i _ _ _ _ F)), Ht|]. split; [exact Rb|].
    split; [apply K, (f_k3 _ _ _ _ F); left; reflexivity|]. split; [exact Q'|].
    assert (Hr : forall f k, (0 < k)%nat -> exists u, sm f k = f 0%nat + B * u).
    { intros f k Hk. destruct k; [lia|]. eexists. apply sm_shift. }
    destruct (Hr (fun j => xr m' (ix r1 j)) n Hn) as [u1 U1]. destruct (Hr (fun j => xr m (ix r1 (j + 1))) n Hn) as [u2 U2].
    destruct (Hr (fun j => mv false (y j) a) n Hn) as [u3 U3]. rewrite U1, U2, U3 in Q'.
    assert (HP : B ^ Z.of_nat n = B * B ^ Z.of_nat (n - 1)).
    { rewrite <- Z.pow_succ_r by lia. f_equal. lia. }
    rewrite HP in Q'. set (P := B ^ Z.of_nat (n - 1)) in *.
    apply (Zmod_unique _ _ (u1 + b2z (fC m') * P - u2 - u3)); [apply Rb; lia|]. cbv beta in Q'. cbn [Nat.add] in Q'. lia.
  Qed.

  Let r8' := r8 n r1 bo qo Hn Hchk. Let r31' := r31 n r1 bo qo Hn Hchk. Let rdist' := rdist n r1 bo qo Hn Hchk.
  Let BpS' := BpS n Hn.

  (** the last instruction, if any, keeps the carry *)
  Lemma tail_ok (fin : bool) m : rb m -> exists m', exec lay (if fin then [] else [Adc 8 31 31]) m = Some m' /\ only wQ m m' /\ rb m' /\ val m' = val m /\
    (fin = false -> xr m' 8 = b2z (fC m)) /\ xr m' (ix r1 0) = xr m (ix r1 0).
  Proof.
    intros Rb. destruct fin.
    - exists m. split; [reflexivity|]. split; [apply only_refl|]. split; [exact Rb|]. split; [reflexivity|]. split; [discriminate|reflexivity].
    - destruct (adc_ok lay 8%nat 31%nat 31%nat m ltac:(lia)) as (m' & E & O & X & _).
      destruct (set_other n r1 Hn _ m m' O r8' Rb) as (R' & V' & _).
      exists m'. split; [exact E|]. split; [apply (only1 _ _ _ _ O), in8Q|]. split; [exact R'|]. split; [exact V'|]. split.
      + intros _. rewrite X, xr_31. pose proof (b2z_01 (fC m)). rewrite Z.mod_small; [lia|]. assert (4 < B) by reflexivity. lia.
      + apply (only1_ne _ _ _ _ O), r8'. lia.
  Qed.

  (** the second loop and the end, after the top word is set *)
  Lemma second_ok fin m m2 y a : only wQ m m2 -> rb m2 -> source n qo y m -> xr m 5 = a -> 0 <= a < B ->
    exists m', exec lay (lq2 n r1 qo ++ (if fin : bool then [] else [Adc 8 31 31])) m2 = Some m' /\ only wQ m m' /\ rb m' /\ xr m' (ix r1 0) = xr m2 (ix r1 0) /\
      exists c, 0 <= c <= 1 /\ (fin = false -> xr m' 8 = c) /\ val m' + c * B ^ Z.of_nat (S n) = val m2 + B * sm (fun j => mv true (y j) a) n.
  Proof.
    intros O R2 Sy Ha Ba.
    destruct (lq2_ok lay n r1 bo qo Hn Hchk m2 y a R2 (srcQ n r1 bo qo Hchk y _ _ Sy O)) as (m4 & E4 & O4 & R4 & K4 & Z4 & Q4); auto.
    { rewrite (proj2 O) by apply (f_5 _ _ _ _ F). exact Ha. }
    rewrite (exec_app _ _ _ _ _ E4).
    destruct (tail_ok fin m4 R4) as (m5 & E5 & O5 & R5 & V5 & X5 & Z5).
    exists m5. split; [exact E5|]. split; [apply (only_trans _ _ m2 _ O), (only_trans _ _ m4 _ O4), O5|]. split; [exact R5|]. split; [congruence|].
    exists (b2z (fC m4)). split; [apply b2z_01|]. split; [exact X5|]. unfold val in *. rewrite V5. exact Q4.
  Qed.

  Lemma first_ok fin m y a : rb m -> source n qo y m -> xr m 5 = a -> 0 <= a < B -> xr m (ix r1 n) < B - 1 ->
    exists m', exec lay (lq1 n r1 qo ++ [Adc (ix r1 n) (ix r1 n) 31] ++ lq2 n r1 qo ++ (if fin : bool then [] else [Adc 8 31 31])) m = Some m' /\ only wQ m m' /\ rb m' /\
      xr m' (ix r1 0) = (xr m (ix r1 0) + mv false (y 0%nat) a) mod B /\
      exists c, 0 <= c <= 1 /\ (fin = false -> xr m' 8 = c) /\ val m' + c * B ^ Z.of_nat (S n) = val m + sm y n * a.
  Proof.
    intros Hb Sy Ha Ba Ht.
    destruct (lq1_ok lay n r1 bo qo Hn Hchk m y a Hb Sy Ha Ba) as (m1 & E1 & O1 & R1 & K1 & Kn & Q1 & Z1).
    rewrite (exec_app _ _ _ _ _ E1).
    destruct (adc_ok lay (ix r1 n) (ix r1 n) 31%nat m1 (r31' n ltac:(lia))) as (m2 & E2 & O2 & X2 & C2).
    rewrite (exec_app _ _ _ _ _ E2). rewrite xr_31, Kn in X2. pose proof (b2z_01 (fC m1)) as C01. pose proof (Hb n ltac:(lia)) as Bn.
    rewrite Z.mod_small in X2 by lia.
    destruct (set_top n r1 bo qo Hn Hchk _ m1 m2 O2 eq_refl R1 ltac:(lia)) as [R2 V2].
    assert (O12 : only wQ m m2) by (apply (only_trans _ _ m1 _ O1), (only1 _ _ _ _ O2), (r_Q n r1 bo qo Hn Hchk); lia).
    destruct (second_ok fin m m2 y a O12 R2 Sy Ha Ba) as (m3 & E3 & O3 & R3 & Z3 & c & Hc & Xc & Q3).
    exists m3. split; [exact E3|]. split; [exact O3|]. split; [exact R3|]. split.
    { rewrite Z3, (only1_ne _ _ _ _ O2) by (apply rdist'; lia). exact Z1. }
    exists c. split; [exact Hc|]. split; [exact Xc|]. rewrite Q3. unfold val. rewrite V2, X2, (val_top n r1 m), <- (mv_split y a n).
    set (P := B ^ Z.of_nat n) in *. lia.
  Qed.

  Lemma next_f m y a z : rb m -> source n qo y m -> xr m 5 = a -> 0 <= a < B -> xr m 8 = z -> 0 <= z <= 1 ->
    exists m', exec lay (lr1 ++ [Adcs (ix r1 n) 31 8] ++ [Adc 8 31 31] ++ lq2 n r1 qo ++ [Adc 8 8 31]) m = Some m' /\ only wQ m m' /\ rb m' /\
      xr m' (ix r1 0) = (xr m (ix r1 1) + mv false (y 0%nat) a) mod B /\
      0 <= xr m' 8 <= 1 /\ val m' + xr m' 8 * B ^ Z.of_nat (S n) = shv m + z * B ^ Z.of_nat n + sm y n * a.
  Proof.
    intros Hb Sy Ha Ba Hz Bz.
    destruct (lr1_ok m y a Hb Sy Ha Ba) as (m1 & E1 & O1 & R1 & K1 & Q1 & Z1).
    rewrite (exec_app _ _ _ _ _ E1).
    destruct (adcs_ok lay (ix r1 n) 31%nat 8%nat m1 (r31' n ltac:(lia))) as (m2 & E2 & O2 & X2 & C2).
    rewrite (exec_app _ _ _ _ _ E2). rewrite xr_31, K1, Hz in X2, C2. pose proof (b2z_01 (fC m1)) as C01.
    assert (HB : 4 < B) by reflexivity.
    rewrite Z.mod_small in X2 by lia. destruct (Z.leb_spec B (0 + z + b2z (fC m1))); [lia|].
    destruct (set_top n r1 bo qo Hn Hchk _ m1 m2 O2 eq_refl R1 ltac:(lia)) as [R2 V2].
    destruct (adc_ok lay 8%nat 31%nat 31%nat m2 ltac:(lia)) as (m3 & E3 & O3 & X3 & C3).
    rewrite (exec_app _ _ _ _ _ E3). rewrite xr_31, C2 in X3. cbn [b2z] in X3. change ((0 + 0 + 0) mod B) with 0 in X3.
    destruct (set_other n r1 Hn _ m2 m3 O3 r8' R2) as (R3 & V3 & _).
    assert (O13 : only wQ m m3).
    { apply (only_trans _ _ m1 _ O1). apply (only_trans _ _ m2); [apply (only1 _ _ _ _ O2), (r_Q n r1 bo qo Hn Hchk); lia|apply (only1 _ _ _ _ O3), in8Q]. }
    destruct (lq2_ok lay n r1 bo qo Hn Hchk m3 y a R3 (srcQ n r1 bo qo Hchk y _ _ Sy O13)) as (m4 & E4 & O4 & R4 & K4 & Z4 & Q4); auto.
    { rewrite (proj2 O13) by apply (f_5 _ _ _ _ F). exact Ha. }
    rewrite (exec_app _ _ _ _ _ E4).
    destruct (adc_ok lay 8%nat 8%nat 31%nat m4 ltac:(lia)) as (m5 & E5 & O5 & X5 & _). pose proof (b2z_01 (fC m4)) as C04.
    rewrite K4, X3, xr_31 in X5. rewrite Z.mod_small in X5 by lia.
    destruct (set_other n r1 Hn _ m4 m5 O5 r8' R4) as (R5 & V5 & _).
    exists m5. split; [exact E5|]. split.
    { apply (only_trans _ _ m3 _ O13). apply (only_trans _ _ m4 _ O4). apply (only1 _ _ _ _ O5), in8Q. }
    split; [exact R5|]. split.
    { rewrite (only1_ne _ _ _ _ O5) by (apply r8'; lia). rewrite Z4. rewrite (only1_ne _ _ _ _ O3) by (apply r8'; lia).
      rewrite (only1_ne _ _ _ _ O2) by (apply rdist'; lia). exact Z1. }
    split; [lia|]. unfold val. rewrite V5, X5. rewrite V3, V2, X2 in Q4. rewrite <- (mv_split y a n).
    set (P := B ^ Z.of_nat n) in *. lia.
  Qed.

  Lemma next_t fin m y a : rb m -> source n qo y m -> xr m 5 = a -> 0 <= a < B -> xr m 8 = 0 ->
    exists m', exec lay (lr1 ++ [Adc (ix r1 n) 31 31] ++ [Adds (ix r1 1) (ix r1 1) 8] ++ lq2 n r1 qo ++ (if fin : bool then [] else [Adc 8 31 31])) m = Some m' /\ only wQ m m' /\ rb m' /\
      xr m' (ix r1 0) = (xr m (ix r1 1) + mv false (y 0%nat) a) mod B /\
      exists c, 0 <= c <= 1 /\ (fin = false -> xr m' 8 = c) /\ val m' + c * B ^ Z.of_nat (S n) = shv m + sm y n * a.
  Proof.
    intros Hb Sy Ha Ba H8.
    destruct (lr1_ok m y a Hb Sy Ha Ba) as (m1 & E1 & O1 & R1 & K1 & Q1 & Z1).
    rewrite (exec_app _ _ _ _ _ E1).
    destruct (adc_ok lay (ix r1 n) 31%nat 31%nat m1 (r31' n ltac:(lia))) as (m2 & E2 & O2 & X2 & C2).
    rewrite (exec_app _ _ _ _ _ E2). rewrite xr_31 in X2. pose proof (b2z_01 (fC m1)) as C01.
    assert (HB : 4 < B) by reflexivity. rewrite Z.mod_small in X2 by lia.
    destruct (set_top n r1 bo qo Hn Hchk _ m1 m2 O2 eq_refl R1 ltac:(lia)) as [R2 V2].
    destruct (adds_ok lay (ix r1 1) (ix r1 1) 8%nat m2 (r31' 1%nat ltac:(lia))) as (m3 & E3 & O3 & X3 & C3).
    rewrite (exec_app _ _ _ _ _ E3).
    rewrite (only1_ne _ _ _ 8%nat O2) in X3 by (intros Q; apply (r8' n); auto). rewrite K1, H8, Z.add_0_r, Z.mod_small in X3 by (apply R2; lia).
    assert (Ks : forall j, (j <= n)%nat -> xr m3 (ix r1 j) = xr m2 (ix r1 j)).
    { intros j Hj. destruct (Nat.eq_dec j 1) as [->|N]; [exact X3|]. apply (only1_ne _ _ _ _ O3), rdist'; lia. }
    assert (R3 : rb m3) by (intros j Hj; rewrite Ks by exact Hj; apply R2, Hj).
    assert (V3 : val m3 = val m2) by (apply sm_ext; intros j Hj; apply Ks; lia).
    assert (O13 : only wQ m m3).
    { apply (only_trans _ _ m1 _ O1). apply (only_trans _ _ m2); [apply (only1 _ _ _ _ O2), (r_Q n r1 bo qo Hn Hchk); lia|apply (only1 _ _ _ _ O3), (r_Q n r1 bo qo Hn Hchk); lia]. }
    destruct (second_ok fin m m3 y a O13 R3 Sy Ha Ba) as (m4 & E4 & O4 & R4 & Z4 & c & Hc & Xc & Q4).
    exists m4. split; [exact E4|]. split; [exact O4|]. split; [exact R4|]. split.
    { rewrite Z4, Ks by lia. rewrite (only1_ne _ _ _ _ O2) by (apply rdist'; lia). exact Z1. }
    exists c. split; [exact Hc|]. split; [exact Xc|]. rewrite Q4, V3. unfold val. rewrite V2, X2, <- (mv_split y a n).
    set (P := B ^ Z.of_nat n) in *. lia.
  Qed.
End Row1.
