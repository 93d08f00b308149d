(** The AArch64 subtractions modulo q and rawNegLS. *)
From Coq Require Import ZArith List Bool Lia.
From Verif Require Import Limbs Arm ArmFacts ArmRaw ArmCmp ArmZero ArmChain ArmSave ArmAdd.
Import ListNotations.
Open Scope Z_scope.

Definition sa (k : subkind) (r1 : list reg) (n : nat) : opr :=
  match k with SubSL => (expand [1%nat] 31%nat n, None) | _ => (r1, Some 1%nat) end.
Definition sb (k : subkind) (w r1 : list reg) (n : nat) : opr :=
  match k with SubLL => (cyclicCopy w n, Some 2%nat) | SubLS => (expand [2%nat] 31%nat n, None) | SubSL => (r1, Some 2%nat) end.
Definition chkSub (k : subkind) (n : nat) : bool :=
  let '(w, r1, _, sv) := addregs n in
  Nat.eqb (length r1) n && svok sv &&
  safes n r1 (sa k r1 n) (sb k w r1 n) && okl sv (touched n r1 (sa k r1 n) (sb k w r1 n)) &&
  safes n r1 (r1, None) (cyclicCopy w n, Some 3%nat) && okl sv (touched n r1 (r1, None) (cyclicCopy w n, Some 3%nat)) &&
  disj r1 [3]%nat.
Lemma chkSub_ok k n : (1 <= n <= 12)%nat -> chkSub k n = true.
Proof. apply (chk12_ok (chkSub k)). destruct k; vm_compute; reflexivity. Qed.

Lemma sub_code k n w r1 r2 sv : addregs n = (w, r1, r2, sv) ->
  rawSubG k n = pushRegs sv ++ flat_map (chainbody false r1 (sa k r1 n) (sb k w r1 n)) (seq 0 n) ++
    Bc HS 1 :: (Adr 3 Srawq :: flat_map (chainbody true r1 (r1, None) (cyclicCopy w n, Some 3%nat)) (seq 0 n)) ++
    Lab 1 :: stv n r1 0 ++ popRegs sv ++ [Ret].
Proof. intros E. unfold rawSubG. rewrite E. destruct k; reflexivity. Qed.

Lemma subq a b q : 0 <= a < q -> 0 <= b < q -> (a - b) mod q = if a <? b then a - b + q else a - b.
Proof.
  intros Ha Hb. destruct (Z.ltb_spec a b).
  - rewrite <- (Z_mod_plus_full (a - b) 1 q). rewrite Z.mod_small; lia.
  - apply Z.mod_small. lia.
Qed.

Definition chkNegLS (n : nat) : bool :=
  let '(w, r1, r2, sv) := addregs n in
  Nat.eqb (length r1) n && Nat.eqb (length r2) n && svok sv &&
  safes n r2 (r1, Some 3%nat) (expand [2%nat] 31%nat n, None) && okl sv (touched n r2 (r1, Some 3%nat) (expand [2%nat] 31%nat n, None)) &&
  keepa n r2 (r1, Some 3%nat) (expand [2%nat] 31%nat n, None) && safes n r2 (r2, None) (cyclicCopy w n, Some 1%nat) && okl sv (touched n r2 (r2, None) (cyclicCopy w n, Some 1%nat)) &&
  safes n r2 (r2, None) (r1, None) && okl sv (touched n r2 (r2, None) (r1, None)) &&
  disj r1 (touched n r2 (r2, None) (cyclicCopy w n, Some 1%nat)) && disj (r1 ++ r2) [2; 3]%nat.
Lemma chkNegLS_ok n : (1 <= n <= 10)%nat -> chkNegLS n = true.
Proof.
  intros Hn. assert (H : forallb chkNegLS (seq 1 10) = true) by (vm_compute; reflexivity).
  rewrite forallb_forall in H. apply H, in_seq. lia.
Qed.
Lemma map_flat {A C} (f : A -> C) l : map f l = flat_map (fun i => [f i]) l.
Proof. induction l as [|x l IH]; cbn; [reflexivity|now rewrite IH]. Qed.

Lemma negls_code n w r1 r2 sv : addregs n = (w, r1, r2, sv) ->
  rawNegLS n = pushRegs sv ++ [Adr 3 Srawq] ++ flat_map (chainbody false r2 (r1, Some 3%nat) (expand [2%nat] 31%nat n, None)) (seq 0 n) ++
    [Cset 2 HS] ++ flat_map (chainbody false r2 (r2, None) (cyclicCopy w n, Some 1%nat)) (seq 0 n) ++
    [Cset 3 HS; Orr 3 3 2] ++ Cbz 3 1 :: flat_map (chainbody true r2 (r2, None) (r1, None)) (seq 0 n) ++
    Lab 1 :: stv n r2 0 ++ popRegs sv ++ [Ret].
Proof. intros E. unfold rawNegLS. rewrite E, map_flat. reflexivity. Qed.

Section AddSub.
  Variables (lay : sym -> Z) (n : nat) (m : mach).
  Hypothesis Hn : (1 <= n <= 12)%nat.
  Hypothesis St : stk m.
  Let d := xr m 0. Let pq := lay Srawq. Let q := num (mem m) pq n.
  Hypothesis Ad : room m d n. Hypothesis Cd : clear_of m d n.
  Hypothesis Aq : area m pq n. Hypothesis Cq : clear_of m pq n.

  Definition srcs (o : list reg -> opr) (y : nat -> Z) : Prop :=
    forall m1 m2 w, mapd m2 = mapd m -> mem m2 = mem m1 -> (forall a, ~ (sp m - 96 <= a < sp m) -> mem m1 a = mem m a) ->
       xr m2 1 = xr m 1 -> xr m2 2 = xr m 2 -> source n (o w) y m2.

  Lemma sub_any k x y :
    srcs (fun r1 => sa k r1 n) x -> (forall r1, srcs (fun w => sb k w r1 n) y) ->
    0 <= sm x n < q -> 0 <= sm y n < q ->
    exists m', run lay None (rawSubG k n) m = Some m' /\ kept m m' /\
      num (mem m') d n = (sm x n - sm y n) mod q /\ outside m m' d n.
  Proof.
    intros Sx Sy Ha Hb. pose proof (chkSub_ok k n Hn) as K. unfold chkSub in K.
    destruct (addregs n) as [[[w r1] r2] sv] eqn:E. repeat (apply andb_prop in K as [K ?]).
    rename H into D3, H0 into O2, H1 into S2', H2 into O1, H3 into S1', H4 into Sv, K into L1.
    apply Nat.eqb_eq in L1.
    rewrite (sub_code k n w r1 r2 sv E).
    destruct (frame_ok lay sv m St Sv) as (m1 & R1 & X1 & Q1 & M1 & Pop). rewrite R1.
    assert (Md1 : mid m m1 m1 sv) by (split; [reflexivity|split; [exact Q1|split; [reflexivity|intros; apply X1]]]).
    destruct (mid_chain lay n false r1 (sa k r1 n) (sb k w r1 n) x y sv m m1 m1)
      as (m2 & E2 & Md2 & P2 & _ & B2 & C2 & _); auto; [lia|apply (Sx m1 m1); auto|apply (Sy r1 m1 m1); auto|].
    rewrite (run_exec _ _ _ _ _ E2).
    set (s1 := fun j => xr m2 (ix r1 j)) in *.
    unfold chain in C2. pose proof (sm_bound s1 n B2) as G1.
    pose proof (area_num _ _ _ Aq) as Nq. fold q in Nq. set (P := B ^ Z.of_nat n) in *.
    rewrite subq by lia. destruct (fC m2) eqn:Ec.
    - assert (X0 : xr m2 0 = xr m 0) by (rewrite P2 by lia; apply X1).
      destruct (finish lay n r1 sv m m1 m2 s1 Pop M1 Md2 X0 L1) as (m5 & E5 & m' & E6 & Kp & Nm & Out); auto.
      exists m'. split; [|split; [exact Kp|split; [|exact Out]]].
      + cbn [run holds]. rewrite Ec, run_skip by (cbn [forallb nolab]; apply chain_nolab).
        rewrite (run_exec _ _ _ _ _ E5). exact E6.
      + unfold d. rewrite Nm. cbn [b2z] in C2. destruct (Z.ltb_spec (sm x n) (sm y n)); lia.
    - set (m3 := wr m2 3 pq).
      assert (Md3 : mid m m1 m3 sv) by (apply mid_wr; [lia|exact Md2]).
      destruct (mid_chain lay n true r1 (r1, None) (cyclicCopy w n, Some 3%nat) s1 (fun j => mem m (pq + off j)) sv m m1 m3)
        as (m4 & E4 & Md4 & P4 & T4 & B4 & C4 & _); auto; [lia| | |].
      { apply src_regs; [exact B2|]. intros j Hj. unfold m3.
        pose proof (ix_notin n r1 [3]%nat L1 D3 j Hj) as N. cbn [In] in N. rewrite xr_ne by lia. reflexivity. }
      { destruct Md3 as (_ & q3 & e3 & _). apply (src_mem n (cyclicCopy w n) 3%nat m m1 m3); auto. }
      assert (X0 : xr m4 0 = xr m 0).
      { rewrite P4 by lia. unfold m3. rewrite xr_ne by lia. rewrite P2 by lia. apply X1. }
      set (s2 := fun j => xr m4 (ix r1 j)) in *. unfold chain in C4. pose proof (sm_bound s2 n B4) as G2.
      replace (sm (fun j => mem m (pq + off j)) n) with q in C4 by apply sm_num. fold P in C4, G2.
      destruct (finish lay n r1 sv m m1 m4 s2 Pop M1 Md4 X0 L1) as (m5 & E5 & m' & E6 & Kp & Nm & Out); auto.
      exists m'. split; [|split; [exact Kp|split; [|exact Out]]].
      + cbn [run holds]. rewrite Ec.
        change (run lay None (flat_map (chainbody true r1 (r1, None) (cyclicCopy w n, Some 3%nat)) (seq 0 n) ++ Lab 1 :: stv n r1 0 ++ popRegs sv ++ [Ret]) m3 = Some m').
        rewrite (run_exec _ _ _ _ _ E4). cbn [run]. rewrite (run_exec _ _ _ _ _ E5). exact E6.
      + unfold d. rewrite Nm. cbn [b2z] in C2. destruct (fC m4); cbn [b2z] in C4; destruct (Z.ltb_spec (sm x n) (sm y n)); lia.
  Qed.

  Lemma negls_any : (n <= 10)%nat -> area m (xr m 1) n -> clear_of m (xr m 1) n ->
    num (mem m) (xr m 1) n < q -> 0 <= xr m 2 < B -> xr m 2 < q ->
    exists m', run lay None (rawNegLS n) m = Some m' /\ kept m m' /\
      num (mem m') d n = (2 * q - num (mem m) (xr m 1) n - xr m 2) mod B ^ Z.of_nat n /\ outside m m' d n.
  Proof.
    intros Hn' Aa Ca Ha Hb Hbq. pose proof (chkNegLS_ok n (conj (proj1 Hn) Hn')) as K. unfold chkNegLS in K.
    destruct (addregs n) as [[[w r1] r2] sv] eqn:E. repeat (apply andb_prop in K as [K ?]).
    rename H into D23, H0 into Dr1, H1 into O3, H2 into S3', H3 into O2, H4 into S2', H5 into Ka, H6 into O1, H7 into S1', H8 into Sv, H9 into L2, K into L1.
    apply Nat.eqb_eq in L1, L2.
    rewrite (negls_code n w r1 r2 sv E).
    destruct (frame_ok lay sv m St Sv) as (m1 & R1 & X1 & Q1 & M1 & Pop). rewrite R1.
    assert (Md1 : mid m m1 m1 sv) by (split; [reflexivity|split; [exact Q1|split; [reflexivity|intros; apply X1]]]).
    set (ma := wr m1 3 pq).
    assert (Mda : mid m m1 ma sv) by (apply mid_wr; [lia|exact Md1]).
    change (run lay None ([Adr 3 Srawq] ++ flat_map (chainbody false r2 (r1, Some 3%nat) (expand [2%nat] 31%nat n, None)) (seq 0 n) ++
      [Cset 2 HS] ++ flat_map (chainbody false r2 (r2, None) (cyclicCopy w n, Some 1%nat)) (seq 0 n) ++
      [Cset 3 HS; Orr 3 3 2] ++ Cbz 3 1 :: flat_map (chainbody true r2 (r2, None) (r1, None)) (seq 0 n) ++
      Lab 1 :: stv n r2 0 ++ popRegs sv ++ [Ret]) m1) with
      (run lay None (flat_map (chainbody false r2 (r1, Some 3%nat) (expand [2%nat] 31%nat n, None)) (seq 0 n) ++
      [Cset 2 HS] ++ flat_map (chainbody false r2 (r2, None) (cyclicCopy w n, Some 1%nat)) (seq 0 n) ++
      [Cset 3 HS; Orr 3 3 2] ++ Cbz 3 1 :: flat_map (chainbody true r2 (r2, None) (r1, None)) (seq 0 n) ++
      Lab 1 :: stv n r2 0 ++ popRegs sv ++ [Ret]) ma).
    assert (Xa : xr ma 2 = xr m 2) by (unfold ma; rewrite xr_ne by lia; apply X1).
    assert (Xa1 : xr ma 1 = xr m 1) by (unfold ma; rewrite xr_ne by lia; apply X1).
    pose proof Mda as (_ & qa & ea & _).
    destruct (mid_chain lay n false r2 (r1, Some 3%nat) (expand [2%nat] 31%nat n, None) (fun j => mem m (pq + off j)) (wrd (xr m 2)) sv m m1 ma)
      as (m2 & E2 & Md2 & P2 & _ & B2 & C2 & Kq); auto; [lia| | |].
    { apply (src_mem n r1 3%nat m m1 ma); auto. }
    { rewrite <- Xa. apply src_word; [lia|]. rewrite Xa. exact Hb. }
    rewrite (run_exec _ _ _ _ _ E2). specialize (Kq Ka). cbn [fst] in Kq.
    set (m3 := wr m2 2 (b2z (fC m2))).
    assert (E3 : exec lay [Cset 2 HS] m2 = Some m3) by reflexivity.
    rewrite (run_exec _ _ _ _ _ E3).
    assert (Md3 : mid m m1 m3 sv) by (apply mid_wr; [lia|exact Md2]). pose proof Md3 as (_ & q3 & e3 & _).
    assert (N23 : forall r z u, In r (r1 ++ r2) -> xr (wr z 2 u) r = xr z r /\ xr (wr z 3 u) r = xr z r).
    { intros r z u Hr. pose proof (disj_ok _ _ D23 r Hr) as N. cbn [In] in N. rewrite !xr_ne by lia. split; reflexivity. }
    assert (I1 : forall j, (j < n)%nat -> In (ix r1 j) (r1 ++ r2)) by (intros j Hj; apply in_or_app; left; apply nth_In; lia).
    assert (I2 : forall j, (j < n)%nat -> In (ix r2 j) (r1 ++ r2)) by (intros j Hj; apply in_or_app; right; apply nth_In; lia).
    set (s1 := fun j => xr m2 (ix r2 j)) in *.
    assert (X31 : xr m3 1 = xr m 1) by (unfold m3; rewrite xr_ne by lia; rewrite P2 by lia; exact Xa1).
    destruct (mid_chain lay n false r2 (r2, None) (cyclicCopy w n, Some 1%nat) s1 (fun j => mem m (xr m 1 + off j)) sv m m1 m3)
      as (m4 & E4 & Md4 & P4 & T4 & B4 & C4 & _); auto; [lia| | |].
    { apply src_regs; [exact B2|]. intros j Hj. apply N23, I2, Hj. }
    { apply (src_mem n (cyclicCopy w n) 1%nat m m1 m3); auto. }
    rewrite (run_exec _ _ _ _ _ E4).
    set (s2 := fun j => xr m4 (ix r2 j)) in *.
    unfold chain in C2, C4. pose proof (sm_bound s1 n B2) as G1. pose proof (sm_bound s2 n B4) as G2.
    pose proof (area_num _ _ _ Aa) as Na. pose proof (area_num _ _ _ Aq) as Nq. fold q in Nq.
    replace (sm (fun j => mem m (pq + off j)) n) with q in C2 by apply sm_num.
    rewrite sm_wrd in C2 by lia.
    replace (sm (fun j => mem m (xr m 1 + off j)) n) with (num (mem m) (xr m 1) n) in C4 by apply sm_num.
    set (a := num (mem m) (xr m 1) n) in *. set (P := B ^ Z.of_nat n) in *.
    assert (Ec : fC m2 = true) by (destruct (fC m2); [reflexivity|cbn [b2z] in C2; lia]).
    set (m5 := wr (wr m4 3 (b2z (fC m4))) 3 1).
    assert (E5 : exec lay [Cset 3 HS; Orr 3 3 2] m4 = Some m5).
    { set (mc := wr m4 3 (b2z (fC m4))) in *.
      assert (X2 : xr mc 2 = 1).
      { unfold mc. rewrite xr_ne by lia. rewrite P4 by lia. unfold m3. rewrite xr_eq by lia. rewrite Ec. reflexivity. }
      change (Some (wr mc 3 (Z.lor (xr mc 3) (xr mc 2))) = Some m5). rewrite X2. unfold m5. do 2 f_equal.
      unfold mc. rewrite xr_eq by lia. destruct (fC m4); reflexivity. }
    rewrite (run_exec _ _ _ _ _ E5).
    assert (Md5 : mid m m1 m5 sv) by (apply mid_wr; [lia|]; apply mid_wr; [lia|exact Md4]).
    destruct (mid_chain lay n true r2 (r2, None) (r1, None) s2 (fun j => mem m (pq + off j)) sv m m1 m5)
      as (m6 & E6 & Md6 & P6 & T6 & B6 & C6 & _); auto; [lia| | |].
    { apply src_regs; [exact B4|]. intros j Hj. unfold m5. rewrite (proj2 (N23 _ _ _ (I2 j Hj))), (proj2 (N23 _ _ _ (I2 j Hj))). reflexivity. }
    { apply src_regs; [intros j Hj; destruct Aq as (_ & _ & _ & A4); apply A4, Hj|]. intros j Hj. unfold m5.
      rewrite (proj2 (N23 _ _ _ (I1 j Hj))), (proj2 (N23 _ _ _ (I1 j Hj))). rewrite T4 by (apply (ix_notin n r1); auto).
      unfold m3. rewrite (proj1 (N23 _ _ _ (I1 j Hj))). apply Kq, Hj. }
    assert (X0 : xr m6 0 = xr m 0).
    { rewrite P6 by lia. unfold m5. rewrite !xr_ne by lia. rewrite P4 by lia. unfold m3. rewrite xr_ne by lia.
      rewrite P2 by lia. unfold ma. rewrite xr_ne by lia. apply X1. }
    set (s3 := fun j => xr m6 (ix r2 j)) in *. unfold chain in C6. pose proof (sm_bound s3 n B6) as G3. fold P in G3, C6.
    replace (sm (fun j => mem m (pq + off j)) n) with q in C6 by apply sm_num.
    destruct (finish lay n r2 sv m m1 m6 s3 Pop M1 Md6 X0 L2) as (m7 & E7 & m' & E8 & Kp & Nm & Out); auto.
    exists m'. split; [|split; [exact Kp|split; [|exact Out]]].
    - cbn [run]. assert (X3 : xr m5 3 = 1) by (unfold m5; apply xr_eq; lia). rewrite X3. cbn [Z.eqb].
      rewrite (run_exec _ _ _ _ _ E6). cbn [run]. rewrite (run_exec _ _ _ _ _ E7). exact E8.
    - unfold d. rewrite Nm. rewrite Ec in C2. cbn [b2z] in C2.
      apply (Zmod_unique _ _ (b2z (fC m4) + b2z (fC m6) - 1)); [exact G3|]. lia.
  Qed.
End AddSub.
