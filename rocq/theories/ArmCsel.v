(** The final selection of the AArch64 multiplications, stored two words at a time. *)
From Coq Require Import ZArith List Bool Lia.
From Verif Require Import Limbs Arm ArmFacts ArmRaw ArmCmp ArmZero ArmChain ArmMul.
Import ListNotations.
Open Scope Z_scope.

Definition chkCsel (n : nat) (r a : list reg) (mr : reg) : bool :=
  Nat.eqb (length r) n && negb (isin mr r) && negb (isin 31%nat r) && disj (map (ix a) (seq 0 n)) r &&
  forallb (fun i => forallb (fun j => negb (Nat.eqb (ix r i) (ix r j))) (seq 0 i)) (seq 0 n).

Definition stored (i : nat) : nat := if Nat.even i then i else i - 1.
Lemma csel_ok lay n r a mr m p : chkCsel n r a mr = true -> (0 < n)%nat -> xr m mr = p -> room m p n ->
  exists m', exec lay (cselStore n r a r mr) m = Some m' /\ sp m' = sp m /\ mapd m' = mapd m /\ (forall t, ~ In t r -> xr m' t = xr m t) /\
    W m m' p (fun j => if fC m then xr m (ix a j) else xr m (ix r j)) n.
Proof.
  intros Hc Hn Hp Hr. unfold chkCsel in Hc. repeat (apply andb_prop in Hc as [Hc ?]).
  rename H into Nd, H0 into Da, H1 into N31, H2 into Nm, Hc into L. apply Nat.eqb_eq in L.
  apply negb_true_iff, isin_false in N31, Nm.
  set (v := fun j => if fC m then xr m (ix a j) else xr m (ix r j)).
  assert (Dist : forall i j, (i < n)%nat -> (j < n)%nat -> i <> j -> ix r i <> ix r j).
  { assert (D : forall i j, (i < n)%nat -> (j < i)%nat -> ix r i <> ix r j).
    { intros i j Hi Hj. rewrite forallb_forall in Nd. specialize (Nd i ltac:(apply in_seq; lia)). rewrite forallb_forall in Nd.
      specialize (Nd j ltac:(apply in_seq; lia)). apply negb_true_iff, Nat.eqb_neq in Nd. exact Nd. }
    intros i j Hi Hj N. destruct (Nat.lt_ge_cases j i); [apply D; auto|]. intros Q. apply (D j i); auto; lia. }
  assert (Inr : forall i, (i < n)%nat -> In (ix r i) r) by (intros; apply nth_In; lia).
  unfold cselStore.
  destruct (exec_loop lay (fun i => Csel (ix r i) (ix a i) (ix r i) HS :: (if Nat.eqb i 0 then [] else stw r (i - 1) mr))
    (fun i m' => sp m' = sp m /\ mapd m' = mapd m /\ fC m' = fC m /\ (forall t, ~ In t r -> xr m' t = xr m t) /\
       (forall j, (j < i)%nat -> xr m' (ix r j) = v j) /\ (forall j, (i <= j < n)%nat -> xr m' (ix r j) = xr m (ix r j)) /\ W m m' p v (stored i)) n m)
    as (m' & E & I1 & I2 & I3 & I4 & I5 & _ & I6).
  - intros i m1 Hi (S1 & Q1 & C1 & K1 & V1 & O1 & W1).
    set (m2 := wr m1 (ix r i) (v i)).
    assert (H31 : ix r i <> 31%nat) by (intros Q; apply N31; rewrite <- Q; apply Inr, Hi).
    assert (E2 : step lay (Csel (ix r i) (ix a i) (ix r i) HS) m1 = Some m2).
    { cbn [step holds]. unfold m2, v. rewrite C1. do 2 f_equal. destruct (fC m).
      - apply K1. intros I. apply (disj_ok _ _ Da (ix a i)); [apply in_seq_map; lia|exact I].
      - apply O1. lia. }
    rewrite (exec_cons _ _ _ _ _ E2).
    assert (V2 : forall j, (j < S i)%nat -> xr m2 (ix r j) = v j).
    { intros j Hj. unfold m2. destruct (Nat.eq_dec j i) as [->|N]; [apply xr_eq, H31|]. rewrite xr_ne by (apply Dist; lia). apply V1. lia. }
    assert (O2 : forall j, (S i <= j < n)%nat -> xr m2 (ix r j) = xr m (ix r j)).
    { intros j Hj. unfold m2. rewrite xr_ne by (apply Dist; lia). apply O1. lia. }
    assert (K2 : forall t, ~ In t r -> xr m2 t = xr m t).
    { intros t Ht. unfold m2. rewrite xr_ne; [auto|]. intros ->. apply Ht, Inr, Hi. }
    assert (Wm2 : forall k, W m m1 p v k -> W m m2 p v k) by (intros k H; exact H).
    destruct (Nat.eqb_spec i 0) as [->|Ni].
    + exists m2. split; [reflexivity|]. repeat split; auto; try apply W1; try (intros; apply O2; lia).
    + destruct (Nat.even (i - 1)) eqn:Ev.
      * assert (Evi : Nat.even i = false) by (replace i with (S (i - 1)) by lia; rewrite ev_S, Ev; reflexivity).
        destruct (stw_W lay r (i - 1) mr m2 m p v) as (m3 & E3 & (x3 & f3 & s3 & q3) & W3).
        { rewrite K2 by exact Nm. exact Hp. }
        { rewrite L. unfold room. change (mapd m2) with (mapd m1). rewrite Q1. exact Hr. }
        { lia. }
        { unfold stored in W1. rewrite Evi in W1. exact W1. }
        { exact Ev. } { apply V2. lia. } { intros _. apply V2. lia. }
        exists m3. split; [exact E3|]. split; [rewrite s3; exact S1|]. split; [rewrite q3; exact Q1|].
        split; [destruct f3 as (_ & _ & f3 & _); rewrite f3; exact C1|].
        split; [intros t Ht; rewrite x3; auto|]. split; [intros j Hj; rewrite x3; auto|]. split; [intros j Hj; rewrite x3; auto|].
        unfold stored. rewrite ev_S, Evi. cbn [negb]. replace (Nat.min (length r) (i - 1 + 2)) with (S i) in W3 by lia. exact W3.
      * assert (Evi : Nat.even i = true) by (replace i with (S (i - 1)) by lia; rewrite ev_S, Ev; reflexivity).
        exists m2. split; [unfold stw; rewrite Ev; reflexivity|]. split; [exact S1|]. split; [exact Q1|]. split; [exact C1|].
        split; [exact K2|]. split; [exact V2|]. split; [exact O2|].
        unfold stored in *. rewrite ev_S, Evi in *. cbn [negb]. replace (S i - 1)%nat with i by lia. exact W1.
  - cbn [stored Nat.even]. repeat split; auto; try (intros; lia).
  - rewrite (exec_app _ _ _ _ _ E). destruct (Nat.even (n - 1)) eqn:Ev.
    + assert (Evi : Nat.even n = false) by (replace n with (S (n - 1)) by lia; rewrite ev_S, Ev; reflexivity).
      destruct (stw_W lay r (n - 1) mr m' m p v) as (m3 & E3 & (x3 & f3 & s3 & q3) & W3).
      { rewrite I4 by exact Nm. exact Hp. }
      { rewrite L. unfold room. rewrite I2. exact Hr. }
      { lia. }
      { unfold stored in I6. rewrite Evi in I6. exact I6. }
      { exact Ev. } { apply I5. lia. } { lia. }
      exists m3. split; [exact E3|]. split; [congruence|]. split; [congruence|]. split; [intros t Ht; rewrite x3; auto|].
      replace (Nat.min (length r) (n - 1 + 2)) with n in W3 by lia. exact W3.
    + assert (Evi : Nat.even n = true) by (replace n with (S (n - 1)) by lia; rewrite ev_S, Ev; reflexivity).
      exists m'. split; [unfold stw; rewrite Ev; reflexivity|]. split; [exact I1|]. split; [exact I2|]. split; [exact I4|].
      unfold stored in I6. rewrite Evi in I6. exact I6.
Qed.
