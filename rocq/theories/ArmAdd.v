(** The AArch64 additions and subtractions modulo q, for the 1 to 12 words they are generated for. *)
From Coq Require Import ZArith List Bool Lia.
From Verif Require Import Limbs Arm ArmFacts ArmRaw ArmCmp ArmZero ArmChain ArmSave.
Import ListNotations.
Open Scope Z_scope.

Definition chk12 (P : nat -> bool) : bool := forallb P (seq 1 12).
Lemma chk12_ok P n : chk12 P = true -> (1 <= n <= 12)%nat -> P n = true.
Proof. unfold chk12. rewrite forallb_forall. intros H Hn. apply H, in_seq. lia. Qed.

(** registers a chain may write: not the parameters, and saved if they have to be *)
Definition okl (sv l : list reg) : bool := disj l [0; 1; 2; 3]%nat && forallb (fun r => Nat.ltb r 18 || isin r sv) l.
Lemma okl_par sv l t : okl sv l = true -> (t < 4)%nat -> ~ In t l.
Proof.
  unfold okl. intros H Ht I. apply andb_prop in H as [H _]. apply (disj_ok _ _ H t I). cbn [In]. lia.
Qed.
Lemma okl_sav sv l t : okl sv l = true -> (18 <= t)%nat -> ~ In t sv -> ~ In t l.
Proof.
  unfold okl. intros H Ht Ns I. apply andb_prop in H as [_ H]. rewrite forallb_forall in H. specialize (H t I).
  apply orb_prop in H as [H|H]; [apply Nat.ltb_lt in H; lia|].
  apply Ns. unfold isin in H. apply existsb_exists in H as (u & Iu & Eu). apply Nat.eqb_eq in Eu. now subst.
Qed.

Lemma stv_nolab l n v b : forallb (nolab l) (stv n v b) = true.
Proof.
  apply forallb_forall. intros i Hi. unfold stv in Hi. apply in_flat_map in Hi as (j & _ & Hj). unfold stw in Hj.
  destruct (Nat.even j); [|destruct Hj]. destruct (Nat.eqb j (length v - 1)); destruct Hj as [<-|[]]; reflexivity.
Qed.
Lemma ldw_nolab l v i b : forallb (nolab l) (ldw v i b) = true.
Proof. unfold ldw. destruct (Nat.even i); [|reflexivity]. destruct (Nat.eqb i (length v - 1)); reflexivity. Qed.
Lemma chain_nolab l add r a b s k : forallb (nolab l) (flat_map (chainbody add r a b) (seq s k)) = true.
Proof.
  apply forallb_forall. intros i Hi. apply in_flat_map in Hi as (j & _ & Hj). revert i Hj. apply forallb_forall.
  unfold chainbody, ldo. rewrite !forallb_app.
  assert (A : forall o, forallb (nolab l) match snd o with Some b0 => ldw (fst o) j b0 | None => [] end = true).
  { intros o. destruct (snd o); [apply ldw_nolab|reflexivity]. }
  rewrite !A. unfold addsub, addr, subr. destruct add, (Nat.eqb j 0); reflexivity.
Qed.

(** what may differ after a routine with result at [pd] *)
Definition outside (m m' : mach) (pd : Z) (n : nat) : Prop :=
  forall x, (forall i, (i < n)%nat -> x <> pd + off i) -> ~ (sp m - 96 <= x < sp m) -> mem m' x = mem m x.
(** the machine in the middle of a routine *)
Definition mid (m m1 m2 : mach) (sv : list reg) : Prop :=
  sp m2 = sp m1 /\ mapd m2 = mapd m /\ mem m2 = mem m1 /\
  (forall r, (18 <= r)%nat -> ~ In r sv -> xr m2 r = xr m r).

Lemma W_num m0 m p f n : W m0 m p f n -> num (mem m) p n = sm f n.
Proof. intros [H _]. rewrite sm_num. apply sm_ext. exact H. Qed.
Lemma out_stack m p n i : clear_of m p n -> (i < n)%nat -> ~ (sp m - 96 <= p + off i < sp m).
Proof. unfold clear_of, off. lia. Qed.

Lemma finish lay n v sv m m1 m2 f :
  (forall m2, sp m2 = sp m1 -> mapd m2 = mapd m -> (forall a, sp m - 96 <= a < sp m -> mem m2 a = mem m1 a) ->
       (forall r, (18 <= r)%nat -> ~ In r sv -> xr m2 r = xr m r) ->
       exists m3, run lay None (popRegs sv ++ [Ret]) m2 = Some m3 /\ kept m m3 /\ mem m3 = mem m2 /\ (forall r, ~ In r sv -> xr m3 r = xr m2 r)) ->
  (forall a, ~ (sp m - 96 <= a < sp m) -> mem m1 a = mem m a) ->
  mid m m1 m2 sv -> xr m2 0 = xr m 0 -> length v = n -> (forall i, (i < n)%nat -> xr m2 (ix v i) = f i) ->
  room m (xr m 0) n -> clear_of m (xr m 0) n ->
  exists m3, exec lay (stv n v 0) m2 = Some m3 /\ exists m4, run lay None (popRegs sv ++ [Ret]) m3 = Some m4 /\ kept m m4 /\
    num (mem m4) (xr m 0) n = sm f n /\ outside m m4 (xr m 0) n.
Proof.
  intros Pop M1 (S2 & Q2 & E2 & K2) X0 Lv Fv R C.
  destruct (stv_ok lay n v 0%nat m2 (xr m 0) f) as (m3 & E3 & (x3 & _ & s3 & q3) & W3); auto.
  { unfold room. rewrite Q2. exact R. }
  destruct (Pop m3) as (m4 & E4 & K4 & M4 & _).
  { congruence. } { congruence. }
  { intros a Ha. destruct W3 as [_ W3]. rewrite W3, E2; [reflexivity|]. intros j Hj ->. exact (out_stack _ _ _ _ C Hj Ha). }
  { intros r Hr Ns. rewrite x3. auto. }
  exists m3. split; [exact E3|]. exists m4. split; [exact E4|]. split; [exact K4|]. split.
  - rewrite M4. apply (W_num m2). exact W3.
  - intros a Ha Hs. rewrite M4. destruct W3 as [_ W3]. rewrite W3, E2 by auto. apply M1. exact Hs.
Qed.

(** a memory operand *)
Lemma src_mem n v b m m1 m2 p : area m p n -> clear_of m p n -> mapd m2 = mapd m -> mem m2 = mem m1 ->
  (forall a, ~ (sp m - 96 <= a < sp m) -> mem m1 a = mem m a) -> xr m2 b = p ->
  source n (v, Some b) (fun j => mem m (p + off j)) m2.
Proof.
  intros A C Q E M X. split.
  - intros j Hj. destruct A as (_ & _ & _ & A). apply A, Hj.
  - cbn [snd]. rewrite X. split.
    + unfold room. rewrite Q. apply area_room, A.
    + intros j Hj. rewrite E. apply M. apply (out_stack m p n j); auto.
Qed.
(** a word in register [b], the rest zeros *)
Definition wrd (x : Z) (j : nat) : Z := if Nat.eqb j 0 then x else 0.
Lemma src_word n b m : (b <> 31)%nat -> 0 <= xr m b < B -> source n (expand [b] 31%nat n, None) (wrd (xr m b)) m.
Proof.
  intros Hb Hx. split.
  - intros j _. unfold wrd. destruct (Nat.eqb j 0); [exact Hx|split; reflexivity || lia].
  - cbn [fst snd]. intros j Hj. unfold expand, wrd. cbn [length app]. destruct j as [|j]; cbn [Nat.eqb ix nth]; [reflexivity|].
    assert (E : nth j (repeat 31%nat (n - 1)) 31%nat = 31%nat).
    { destruct (nth_in_or_default j (repeat 31%nat (n - 1)) 31%nat) as [I|I]; [exact (repeat_spec _ _ _ I)|exact I]. }
    unfold ix. cbn [nth]. match goal with |- xr m ?t = 0 => replace t with 31%nat end; reflexivity.
Qed.
Lemma sm_wrd x n : (0 < n)%nat -> sm (wrd x) n = x.
Proof.
  destruct n as [|n]; [lia|]. intros _. induction n as [|n IH].
  - cbn. lia.
  - cbn [sm] in *. rewrite IH. unfold wrd. cbn [Nat.eqb]. lia.
Qed.
Lemma src_regs n v f m : (forall j, (j < n)%nat -> 0 <= f j < B) -> (forall j, (j < n)%nat -> xr m (ix v j) = f j) -> source n (v, None) f m.
Proof. intros H1 H2. split; [exact H1|exact H2]. Qed.

(** a chain in the middle of a routine *)
Lemma mid_chain lay n add r a b x y sv m m1 m2 : (0 < n)%nat -> safes n r a b = true -> okl sv (touched n r a b) = true ->
  source n a x m2 -> source n b y m2 -> mid m m1 m2 sv ->
  exists m3, exec lay (flat_map (chainbody add r a b) (seq 0 n)) m2 = Some m3 /\ mid m m1 m3 sv /\
    (forall t, (t < 4)%nat -> xr m3 t = xr m2 t) /\ (forall t, ~ In t (touched n r a b) -> xr m3 t = xr m2 t) /\
    (forall j, (j < n)%nat -> 0 <= xr m3 (ix r j) < B) /\
    chain add x y (fun j => xr m3 (ix r j)) (b2z (fC m3)) n /\
    (keepa n r a b = true -> forall j, (j < n)%nat -> xr m3 (ix (fst a) j) = x j).
Proof.
  intros Hn Hs Ho Sa Sb (s & q & e & k).
  destruct (chain_ok lay n add r a b x y m2 Hn Hs Sa Sb) as (m3 & E & (M & Q & P) & T & Bd & C).
  exists m3. split; [exact E|]. split.
  - split; [congruence|]. split; [congruence|]. split; [congruence|]. intros t Ht Ns. rewrite T; [auto|]. apply (okl_sav sv); auto.
  - split; [intros t Ht; apply T, (okl_par sv); auto|]. split; [exact T|]. split; [exact Bd|exact C].
Qed.
Lemma mid_wr m m1 m2 sv r v : (r < 18)%nat -> mid m m1 m2 sv -> mid m m1 (wr m2 r v) sv.
Proof.
  intros Hr (s & q & e & k). split; [exact s|]. split; [exact q|]. split; [exact e|]. intros t Ht Ns. rewrite xr_ne by lia. auto.
Qed.
Lemma ix_notin n r l : length r = n -> disj r l = true -> forall j, (j < n)%nat -> ~ In (ix r j) l.
Proof. intros Hl H j Hj. apply (disj_ok _ _ H). apply nth_In. lia. Qed.

(** *** rawAdd, rawAddLS *)
Definition bop (short : bool) (w : list reg) (n : nat) : opr := if short then (expand [2%nat] 31%nat n, None) else (cyclicCopy w n, Some 2%nat).
Definition chkAdd (short : bool) (n : nat) : bool :=
  let '(w, r1, r2, sv) := addregs n in
  Nat.eqb (length r1) n && Nat.eqb (length r2) n && svok sv &&
  safes n r1 (r1, Some 1%nat) (bop short w n) && okl sv (touched n r1 (r1, Some 1%nat) (bop short w n)) &&
  safes n r2 (r1, None) (r2, Some 3%nat) && okl sv (touched n r2 (r1, None) (r2, Some 3%nat)) &&
  disj r1 (touched n r2 (r1, None) (r2, Some 3%nat)) && disj (r1 ++ r2) [2; 3]%nat.
Lemma chkAdd_ok short n : (1 <= n <= 12)%nat -> chkAdd short n = true.
Proof. apply (chk12_ok (chkAdd short)). destruct short; vm_compute; reflexivity. Qed.

Lemma add_code short n w r1 r2 sv : addregs n = (w, r1, r2, sv) ->
  rawAddG short n = pushRegs sv ++ flat_map (chainbody true r1 (r1, Some 1%nat) (bop short w n)) (seq 0 n) ++
    [Cset 2 HS; Adr 3 Srawq] ++ flat_map (chainbody false r2 (r1, None) (r2, Some 3%nat)) (seq 0 n) ++
    [Cbnz 2 1; Bc HS 1] ++ stv n r1 0 ++ (Br 2 :: Lab 1 :: stv n r2 0 ++ Lab 2 :: popRegs sv ++ [Ret]).
Proof. intros E. unfold rawAddG. rewrite E. destruct short; reflexivity. Qed.

Lemma addq a b q : 0 <= a < q -> 0 <= b < q -> (a + b) mod q = if a + b <? q then a + b else a + b - q.
Proof.
  intros Ha Hb. destruct (Z.ltb_spec (a + b) q). { apply Z.mod_small. lia. }
  rewrite <- (Z_mod_plus_full (a + b) (-1) q). rewrite Z.mod_small; lia.
Qed.

Section AddSub.
  Variables (lay : sym -> Z) (n : nat) (m : mach).
  Hypothesis Hn : (1 <= n <= 12)%nat.
  Hypothesis St : stk m.
  Let d := xr m 0. Let pq := lay Srawq. Let q := num (mem m) pq n.
  Hypothesis Ad : room m d n. Hypothesis Cd : clear_of m d n.
  Hypothesis Aq : area m pq n. Hypothesis Cq : clear_of m pq n.

  Lemma add_any short y :
    area m (xr m 1) n -> clear_of m (xr m 1) n ->
    (forall m1 m2 w, mapd m2 = mapd m -> mem m2 = mem m1 -> (forall a, ~ (sp m - 96 <= a < sp m) -> mem m1 a = mem m a) ->
       xr m2 2 = xr m 2 -> source n (bop short w n) y m2) ->
    num (mem m) (xr m 1) n < q -> 0 <= sm y n < q ->
    exists m', run lay None (rawAddG short n) m = Some m' /\ kept m m' /\
      num (mem m') d n = (num (mem m) (xr m 1) n + sm y n) mod q /\ outside m m' d n.
  Proof.
    intros Aa Ca Sy Ha Hb. pose proof (chkAdd_ok short n Hn) as K. unfold chkAdd in K.
    destruct (addregs n) as [[[w r1] r2] sv] eqn:E. repeat (apply andb_prop in K as [K ?]).
    rename H into D23, H0 into Dr1, H1 into O2, H2 into S2', H3 into O1, H4 into S1', H5 into Sv, H6 into L2, K into L1.
    apply Nat.eqb_eq in L1, L2.
    rewrite (add_code short n w r1 r2 sv E).
    destruct (frame_ok lay sv m St Sv) as (m1 & R1 & X1 & Q1 & M1 & Pop). rewrite R1.
    assert (Md1 : mid m m1 m1 sv) by (split; [reflexivity|split; [exact Q1|split; [reflexivity|intros; apply X1]]]).
    destruct (mid_chain lay n true r1 (r1, Some 1%nat) (bop short w n) (fun j => mem m (xr m 1 + off j)) y sv m m1 m1)
      as (m2 & E2 & Md2 & P2 & _ & B2 & C2 & _); auto; [lia|apply (src_mem n r1 1%nat m m1 m1); auto|apply (Sy m1 m1); auto|].
    rewrite (run_exec _ _ _ _ _ E2).
    set (m3 := wr (wr m2 2 (b2z (fC m2))) 3 pq).
    assert (E3 : exec lay [Cset 2 HS; Adr 3 Srawq] m2 = Some m3) by reflexivity.
    rewrite (run_exec _ _ _ _ _ E3).
    assert (Md3 : mid m m1 m3 sv) by (apply mid_wr; [lia|]; apply mid_wr; [lia|exact Md2]).
    assert (N23 : forall r, In r (r1 ++ r2) -> xr m3 r = xr m2 r).
    { intros r Hr. pose proof (disj_ok _ _ D23 r Hr) as N. cbn [In] in N. unfold m3. rewrite !xr_ne by lia. reflexivity. }
    assert (I1 : forall j, (j < n)%nat -> In (ix r1 j) (r1 ++ r2)) by (intros j Hj; apply in_or_app; left; apply nth_In; lia).
    set (s1 := fun j => xr m2 (ix r1 j)) in *.
    destruct (mid_chain lay n false r2 (r1, None) (r2, Some 3%nat) s1 (fun j => mem m (pq + off j)) sv m m1 m3)
      as (m4 & E4 & Md4 & P4 & T4 & B4 & C4 & _); auto; [lia| | |].
    { apply src_regs; [exact B2|]. intros j Hj. apply N23, I1, Hj. }
    { destruct Md3 as (_ & q3 & e3 & _). apply (src_mem n r2 3%nat m m1 m3); auto. }
    rewrite (run_exec _ _ _ _ _ E4).
    assert (V1 : forall j, (j < n)%nat -> xr m4 (ix r1 j) = s1 j).
    { intros j Hj. rewrite T4 by (apply (ix_notin n r1); auto). apply N23, I1, Hj. }
    assert (X2 : xr m4 2 = b2z (fC m2)).
    { rewrite P4 by lia. unfold m3. rewrite xr_ne, xr_eq by lia. reflexivity. }
    assert (X0 : xr m4 0 = xr m 0).
    { rewrite P4 by lia. unfold m3. rewrite !xr_ne by lia. rewrite P2 by lia. apply X1. }
    set (s2 := fun j => xr m4 (ix r2 j)) in *.
    unfold chain in C2, C4. pose proof (sm_bound s1 n B2) as G1. pose proof (sm_bound s2 n B4) as G2.
    pose proof (area_num _ _ _ Aa) as Na. pose proof (area_num _ _ _ Aq) as Nq. fold q in Nq.
    replace (sm (fun j => mem m (xr m 1 + off j)) n) with (num (mem m) (xr m 1) n) in C2 by apply sm_num.
    replace (sm (fun j => mem m (pq + off j)) n) with q in C4 by apply sm_num.
    set (a := num (mem m) (xr m 1) n) in *. set (P := B ^ Z.of_nat n) in *.
    assert (Res : forall v f, length v = n -> (forall j, (j < n)%nat -> xr m4 (ix v j) = f j) -> sm f n = (a + sm y n) mod q ->
      exists m5, exec lay (stv n v 0) m4 = Some m5 /\ exists m', run lay None (popRegs sv ++ [Ret]) m5 = Some m' /\ kept m m' /\
        num (mem m') d n = (a + sm y n) mod q /\ outside m m' d n).
    { intros v f Lv Vv Ev. rewrite <- Ev. apply (finish lay n v sv m m1 m4 f); auto. }
    destruct (fC m2 || fC m4) eqn:Ec.
    - destruct (Res r2 s2 L2) as (m5 & E5 & m' & E6 & Rest).
      { reflexivity. }
      { rewrite addq by lia. apply orb_prop in Ec. destruct (Z.ltb_spec (a + sm y n) q); destruct (fC m2), (fC m4); cbn [b2z] in *; try lia; destruct Ec; discriminate. }
      exists m'. split; [|exact Rest]. rewrite <- E6.
      assert (J : run lay (Some 1%nat) (stv n r1 0 ++ Br 2 :: Lab 1 :: stv n r2 0 ++ Lab 2 :: popRegs sv ++ [Ret]) m4 = run lay None (popRegs sv ++ [Ret]) m5).
      { change (Br 2 :: Lab 1 :: stv n r2 0 ++ Lab 2 :: popRegs sv ++ [Ret]) with ([Br 2] ++ Lab 1 :: stv n r2 0 ++ Lab 2 :: popRegs sv ++ [Ret]).
        rewrite app_assoc, run_skip by (rewrite forallb_app, stv_nolab; reflexivity).
        rewrite (run_exec _ _ _ _ _ E5). reflexivity. }
      cbn [app run]. rewrite X2. destruct (fC m2); cbn [b2z Z.eqb].
      + change (run lay (Some 1%nat) (Bc HS 1 :: stv n r1 0 ++ Br 2 :: Lab 1 :: stv n r2 0 ++ Lab 2 :: popRegs sv ++ [Ret]) m4 = run lay None (popRegs sv ++ [Ret]) m5).
        exact J.
      + cbn [run holds]. cbn [orb] in Ec. rewrite Ec. exact J.
    - destruct (Res r1 s1 L1) as (m5 & E5 & m' & E6 & Rest).
      { exact V1. }
      { rewrite addq by lia. apply orb_false_elim in Ec as [Ec1 Ec2]. rewrite Ec1 in *. rewrite Ec2 in *. cbn [b2z] in *. destruct (Z.ltb_spec (a + sm y n) q); lia. }
      exists m'. split; [|exact Rest]. rewrite <- E6. apply orb_false_elim in Ec as [Ec1 Ec2].
      cbn [app run]. rewrite X2, Ec1. cbn [b2z Z.eqb run holds]. rewrite Ec2.
      rewrite (run_exec _ _ _ _ _ E5). cbn [run].
      change (Lab 1 :: stv n r2 0 ++ Lab 2 :: popRegs sv ++ [Ret]) with ((Lab 1 :: stv n r2 0) ++ Lab 2 :: popRegs sv ++ [Ret]).
      change (run lay (Some 2%nat) ((Lab 1 :: stv n r2 0) ++ Lab 2 :: popRegs sv ++ [Ret]) m5 = run lay None (popRegs sv ++ [Ret]) m5).
      apply run_skip. cbn [forallb nolab Nat.eqb negb andb]. apply stv_nolab.
  Qed.
End AddSub.
