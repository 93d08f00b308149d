(** The AArch64 rawMMul: loads, rows, final subtraction and selection. *)
From Coq Require Import ZArith List Bool Lia.
From Verif Require Import Limbs Arm ArmFacts ArmRaw ArmCmp ArmZero ArmChain ArmSave ArmAdd ArmFrame ArmMul ArmMulChain ArmMulAB ArmMulRow ArmMulLoop ArmCsel.
Import ListNotations.
Open Scope Z_scope.

(** *** loading a whole number *)
Definition chkLdv (n : nat) (v : list reg) (b : reg) : bool :=
  Nat.eqb (length v) n && negb (isin b v) && negb (isin 31%nat v) &&
  forallb (fun i => forallb (fun j => negb (Nat.eqb (ix v i) (ix v j))) (seq 0 i)) (seq 0 n).
Lemma ldv_ok lay n v b m p : chkLdv n v b = true -> xr m b = p -> room m p n ->
  exists m', exec lay (ldv n v b) m = Some m' /\ only v m m' /\ (forall j, (j < n)%nat -> xr m' (ix v j) = mem m (p + off j)).
Proof.
  intros Hc Hp Hr. unfold chkLdv in Hc. repeat (apply andb_prop in Hc as [Hc ?]).
  rename H into Nd, H0 into N31, H1 into Nb, Hc into L. apply Nat.eqb_eq in L.
  apply negb_true_iff, isin_false in N31, Nb.
  assert (Dist : forall i j, (i < n)%nat -> (j < n)%nat -> i <> j -> ix v i <> ix v j).
  { assert (D : forall i j, (i < n)%nat -> (j < i)%nat -> ix v i <> ix v j).
    { intros i j Hi Hj. rewrite forallb_forall in Nd. specialize (Nd i ltac:(apply in_seq; lia)). rewrite forallb_forall in Nd.
      specialize (Nd j ltac:(apply in_seq; lia)). apply negb_true_iff, Nat.eqb_neq in Nd. exact Nd. }
    intros i j Hi Hj N. destruct (Nat.lt_ge_cases j i); [apply D; auto|]. intros Q. apply (D j i); auto; lia. }
  assert (Inr : forall i, (i < n)%nat -> In (ix v i) v) by (intros; apply nth_In; lia).
  assert (H31 : forall i, (i < n)%nat -> ix v i <> 31%nat) by (intros i Hi Q; apply N31; rewrite <- Q; apply Inr, Hi).
  unfold ldv.
  destruct (exec_loop lay (fun i => ldw v i b) (fun i m' => only v m m' /\ (forall j, (j < done n i)%nat -> xr m' (ix v j) = mem m (p + off j))) n m)
    as (m' & E & O & V).
  - intros i m1 Hi ([S1 K1] & V1).
    destruct (ldw_ok lay v i b m1 p) as (m2 & E2 & S2 & F2 & V2 & K2).
    { rewrite K1; auto. } { rewrite L. exact (same_room _ _ _ _ S1 Hr). } { lia. }
    { intros H. split; [apply Dist; lia|apply H31; lia]. } { apply H31, Hi. }
    exists m2. split; [exact E2|]. split.
    + split; [exact (same_trans _ _ _ S1 S2)|]. intros t Ht. rewrite K2; [auto|].
      intros _. split; [intros ->; apply Ht, Inr, Hi|]. intros H ->. apply Ht, Inr. lia.
    + intros j Hj. destruct S1 as (M1 & _). rewrite M1 in V2. destruct (Nat.even i) eqn:Ev.
      * destruct (V2 eq_refl) as [Va Vb]. destruct (Nat.eq_dec j i) as [->|N1]; [exact Va|].
        destruct (Nat.eq_dec j (i + 1)) as [->|N2].
        { unfold done in Hj. rewrite ev_S, Ev in Hj. cbn [negb] in Hj. apply Vb. lia. }
        unfold done in Hj, V1. rewrite ev_S, Ev in Hj. rewrite Ev in V1. cbn [negb] in Hj.
        rewrite K2; [apply V1; lia|]. intros _. split; [apply Dist; lia|intros; apply Dist; lia].
      * rewrite K2 by discriminate. apply V1. unfold done in *. rewrite ev_S, Ev in Hj. rewrite Ev. cbn [negb] in Hj. lia.
  - split; [apply only_refl|]. unfold done. cbn. lia.
  - exists m'. split; [exact E|]. split; [exact O|]. rewrite done_n in V. exact V.
Qed.

(** *** the code in the shape of the lemmas *)
Definition opb (n : nat) (v : list reg) (b : reg) : opr := (v, if short n then None else Some b).
Definition loadb (n : nat) (v : list reg) (b : reg) : list instr := if short n then ldv n v b else [].
Lemma ldl_ldo n v i b : ldl n v i b = ldo (opb n v b) i.
Proof. unfold ldl, ldo, opb. cbn [fst snd]. destruct (short n); reflexivity. Qed.
Lemma row_code opt n R i : mulRow opt n R i = rowf n (mr1 R) (opb n (mb1 R) 2%nat) (opb n (mq1 R) 6%nat) opt i.
Proof.
  unfold mulRow, rowf, mulAB, addMulAB, mulRawq, lp1, lp2, lq1, lq2, abbody, mbody, addk, mi. cbn [app fst opb].
  f_equal. f_equal.
  - destruct (Nat.eqb i 0).
    + f_equal. apply flat_map_ext. intros j. rewrite ldl_ldo. reflexivity.
    + destruct opt; rewrite <- ?app_assoc; cbn [app].
      * f_equal; [apply flat_map_ext; intros j; rewrite ldl_ldo; unfold addr; destruct (Nat.eqb j 0); reflexivity|]. do 2 f_equal. rewrite app_nil_r. apply flat_map_ext; intros j; rewrite ldl_ldo; unfold addr; destruct (Nat.eqb j 0); reflexivity.
      * f_equal; [apply flat_map_ext; intros j; rewrite ldl_ldo; unfold addr; destruct (Nat.eqb j 0); reflexivity|]. do 2 f_equal. f_equal. apply flat_map_ext; intros j; rewrite ldl_ldo; unfold addr; destruct (Nat.eqb j 0); reflexivity.
  - f_equal. destruct opt; cbn [app].
    + f_equal; [apply flat_map_ext; intros j; rewrite ldl_ldo; unfold addr; destruct (Nat.eqb j 0); reflexivity|]. f_equal. f_equal; [apply flat_map_ext; intros j; rewrite ldl_ldo; unfold addr; destruct (Nat.eqb j 0); reflexivity|].
      destruct (Nat.ltb i (n - 1)); reflexivity.
    + f_equal; [apply flat_map_ext; intros j; rewrite ldl_ldo; unfold addr; destruct (Nat.eqb j 0); reflexivity|]. do 2 f_equal. f_equal. apply flat_map_ext; intros j; rewrite ldl_ldo; unfold addr; destruct (Nat.eqb j 0); reflexivity.
Qed.
Lemma sub_code n R : (if short n then flat_map (fun i => [subw (mb2 R) (mr2 R) (mq2 R) i]) (seq 0 n) else subld n (mb2 R) (mr2 R) (mq2 R) 6) =
  flat_map (chainbody false (mb2 R) (mr2 R, None) (opb n (mq2 R) 6%nat)) (seq 0 n).
Proof. unfold subld, chainbody, ldo, opb, subw, addsub. cbn [fst snd app]. destruct (short n); apply flat_map_ext; intros; reflexivity. Qed.
Definition cmp8 (opt : bool) : list instr := if opt then [] else [Cinc 8 8 HS; CmpI 8 1].
Lemma mul_code opt n : let R := mulregs n in
  rawMMul opt n = pushRegs (msv R) ++ loadb n (mb1 R) 2%nat ++ [Adr 4 Snp; Ldr 4 4 0; Adr 6 Srawq] ++ loadb n (mq1 R) 6%nat ++
    flat_map (rowf n (mr1 R) (opb n (mb1 R) 2%nat) (opb n (mq1 R) 6%nat) opt) (seq 0 n) ++
    flat_map (chainbody false (mb2 R) (mr2 R, None) (opb n (mq2 R) 6%nat)) (seq 0 n) ++ cmp8 opt ++ cselStore n (mr2 R) (mb2 R) (mr2 R) 0%nat ++ popRegs (msv R) ++ [Ret].
Proof.
  intros R. unfold rawMMul, mulConst, mulEnd. fold R. rewrite sub_code, (flat_map_ext _ _ (row_code opt n R)). rewrite <- !app_assoc. reflexivity.
Qed.

(** *** the registers *)
Definition usedR (n : nat) (R : mregs) : list reg :=
  [4; 6]%nat ++ mb1 R ++ mq1 R ++ wAll (mr1 R) (opb n (mb1 R) 2%nat) (opb n (mq1 R) 6%nat) ++
  touched n (mb2 R) (mr2 R, None) (opb n (mq2 R) 6%nat) ++ mr2 R.
(** the stack that is used *)
Definition depth (n : nat) : Z := 16 * Z.of_nat (prs (msv (mulregs n))).
Definition chkMul (n : nat) : bool :=
  let R := mulregs n in let q2 := opb n (mq2 R) 6%nat in
  chkRow n (mr1 R) (opb n (mb1 R) 2%nat) (opb n (mq1 R) 6%nat) && svokd (depth n) (msv R) &&
  (if short n then chkLdv n (mb1 R) 2%nat && chkLdv n (mq1 R) 6%nat && disj (map (ix (mb1 R)) (seq 0 n)) ([4; 6]%nat ++ mq1 R) && disj [0; 1; 2; 4; 6]%nat (mb1 R ++ mq1 R) else true) &&
  safes n (mb2 R) (mr2 R, None) q2 && keepa n (mb2 R) (mr2 R, None) q2 && disj [0; 8]%nat (touched n (mb2 R) (mr2 R, None) q2) &&
  chkCsel n (mr2 R) (mb2 R) 0%nat && disj (map (ix (mb2 R)) (seq 0 n) ++ map (ix (mr2 R)) (seq 0 n)) [8%nat] &&
  forallb (fun i => Nat.eqb (ix (mr2 R) i) (ix (mr1 R) (i + 1))) (seq 0 n) &&
  (if short n then forallb (fun i => Nat.eqb (ix (mq2 R) i) (ix (mq1 R) i)) (seq 0 n) else true) &&
  forallb (fun r => Nat.ltb r 18 || isin r (msv R)) (usedR n R).

Lemma only_mid n R m m1 m2 : (forall r, xr m1 r = xr m r) -> mapd m1 = mapd m ->
  forallb (fun r => Nat.ltb r 18 || isin r (msv R)) (usedR n R) = true -> only (usedR n R) m1 m2 ->
  mid m m1 m2 (msv R).
Proof.
  intros X Q H [(a & b & c) K]. split; [exact c|]. split; [congruence|]. split; [exact a|]. intros r Hr Ns. rewrite K; [apply X|].
  intros I. rewrite forallb_forall in H. specialize (H r I). apply orb_prop in H as [H|H]; [apply Nat.ltb_lt in H; lia|].
  apply Ns. unfold isin in H. apply existsb_exists in H as (u & Iu & Eu). apply Nat.eqb_eq in Eu. now subst.
Qed.
Lemma cmp1 m v : 0 <= xr m 8 < 3 -> exec v [Cinc 8 8 HS; CmpI 8 1] m = Some (snd (awc (wr m 8 (xr m 8 + b2z (fC m))) (xr m 8 + b2z (fC m)) (inv64 1) 1)) /\
  fC (snd (awc (wr m 8 (xr m 8 + b2z (fC m))) (xr m 8 + b2z (fC m)) (inv64 1) 1)) = (1 <=? xr m 8 + b2z (fC m)).
Proof.
  intros H. assert (0 <= b2z (fC m) <= 1) by (destruct (fC m); cbn; lia).
  assert (EB : B = 18446744073709551616) by reflexivity. split.
  - cbn [exec step holds].
    assert (Q : (if fC m then (xr m 8 + 1) mod B else xr m 8) = xr m 8 + b2z (fC m)).
    { destruct (fC m); cbn [b2z] in *; [apply Z.mod_small; lia|lia]. }
    rewrite Q. rewrite xr_eq by lia. reflexivity.
  - unfold awc. cbn [snd fC wfl]. unfold inv64. change (B - 1 - 1) with (B - 2). 
    destruct (Z.leb_spec 1 (xr m 8 + b2z (fC m))); [apply Z.leb_le|apply Z.leb_gt]; lia.
Qed.

(** *** the theorem *)
Lemma sel_num s b q P t c rr M a : 0 <= s < P -> 0 <= t <= 1 -> 0 <= c <= 1 -> 0 <= rr < P -> 0 < q < P -> s + t * P < 2 * q ->
  rr = s - q + (1 - c) * P -> P * (s + t * P) = a * b + M * q ->
  let r := if 1 <=? t + c then rr else s in 0 <= r < q /\ (r * P) mod q = (a * b) mod q.
Proof.
  intros Hs Ht Hc Hr Hq Hl Er HM r.
  assert (C : r = s + t * P /\ r < q \/ r = s + t * P - q).
  { clear HM. unfold r. assert (Ct : t = 0 \/ t = 1) by lia. assert (Cc : c = 0 \/ c = 1) by lia.
    destruct Ct as [-> | ->], Cc as [-> | ->]; cbn [Z.leb Z.compare Z.add Pos.compare Pos.compare_cont Pos.add]; lia. }
  assert (0 <= r) by (unfold r; destruct (Z.leb_spec 1 (t + c)); lia).
  destruct C as [[C1 C2]|C1].
  - split; [lia|]. rewrite C1, Z.mul_comm, HM. apply Z_mod_plus_full.
  - split; [lia|]. rewrite C1. replace ((s + t * P - q) * P) with (P * (s + t * P) + (- P) * q) by ring. rewrite HM, !Z_mod_plus_full. reflexivity.
Qed.

Section Mul.
  Variables (lay : sym -> Z) (n : nat) (opt : bool) (m : mach).
  Hypothesis Hn : (1 <= n <= 12)%nat.
  Let D := depth n.
  Hypothesis St : stkd D m.
  Let d := xr m 0. Let pq := lay Srawq. Let q := num (mem m) pq n. Let np := mem m (lay Snp).
  Let a := num (mem m) (xr m 1) n. Let b := num (mem m) (xr m 2) n.
  Hypothesis Ad : room m d n. Hypothesis Cd : cleard D m d n.
  Hypothesis Aq : area m pq n. Hypothesis Cq : cleard D m pq n.
  Hypothesis Ap : area m (lay Snp) 1. Hypothesis Cp : cleard D m (lay Snp) 1.
  Hypothesis Aa : area m (xr m 1) n. Hypothesis Ca : cleard D m (xr m 1) n.
  Hypothesis Ab : area m (xr m 2) n. Hypothesis Cb : cleard D m (xr m 2) n.
  Hypothesis Hnp : (np * q + 1) mod B = 0.
  Hypothesis Hb : b < q.
  Hypothesis Hopt : opt = true -> 2 * q <= B ^ Z.of_nat n.

  Let R := mulregs n. Let bo := opb n (mb1 R) 2%nat. Let qo := opb n (mq1 R) 6%nat. Let q2o := opb n (mq2 R) 6%nat. Let U := usedR n R.
  Let x (j : nat) := mem m (xr m 1 + off j). Let y (j : nat) := mem m (xr m 2 + off j). Let z (j : nat) := mem m (pq + off j).

  Lemma chkMul_ok : chkMul n = true.
  Proof. assert (H : forallb chkMul (seq 1 12) = true) by (vm_compute; reflexivity). rewrite forallb_forall in H. apply H, in_seq. lia. Qed.
  Let n0 : (0 < n)%nat. Proof. lia. Qed.
  Let np0 : (np * z 0%nat + 1) mod B = 0.
  Proof.
    assert (E : exists k, q = z 0%nat + B * k).
    { unfold q. rewrite sm_num. destruct n as [|k]; [lia|]. exists (sm (fun j => mem m (pq + off (S j))) k). rewrite sm_shift. reflexivity. }
    destruct E as [k E]. rewrite E in Hnp. rewrite <- Hnp. replace (np * (z 0%nat + B * k) + 1) with (np * z 0%nat + 1 + (np * k) * B) by ring.
    now rewrite Z_mod_plus_full.
  Qed.
  Let in_U t : In t (wAll (mr1 R) bo qo) -> In t U.
  Proof. intros H. unfold U, usedR. fold bo qo. rewrite !in_app_iff. auto. Qed.

  (** the constants and operands *)
  Lemma prologue m1 : (forall r, xr m1 r = xr m r) -> mapd m1 = mapd m -> (forall c, ~ (sp m - D <= c < sp m) -> mem m1 c = mem m c) ->
    exists m2, exec lay (loadb n (mb1 R) 2%nat ++ [Adr 4 Snp; Ldr 4 4 0; Adr 6 Srawq] ++ loadb n (mq1 R) 6%nat) m1 = Some m2 /\ only U m1 m2 /\
      source n bo y m2 /\ source n qo z m2 /\ xr m2 0 = d /\ xr m2 1 = xr m 1 /\ xr m2 4 = np /\ xr m2 6 = pq.
  Proof.
    intros X Q M. pose proof chkMul_ok as K. unfold chkMul in K. fold R in K. repeat (apply andb_prop in K as [K ?]).
    match goal with H : (if short n then chkLdv _ _ _ && _ && _ && _ else true) = true |- _ => rename H into KL end. clear -KL X Q M Ap Cp Aq Cq Ab Cb n0 St.
    assert (Hb : forall j, (j < n)%nat -> 0 <= y j < B) by (intros j Hj; destruct Ab as (_ & _ & _ & H); apply H, Hj).
    assert (Hz : forall j, (j < n)%nat -> 0 <= z j < B) by (intros j Hj; destruct Aq as (_ & _ & _ & H); apply H, Hj).
    assert (Rb1 : room m1 (xr m 2) n) by (unfold room; rewrite Q; apply area_room, Ab).
    assert (Rq1 : room m1 pq n) by (unfold room; rewrite Q; apply area_room, Aq).
    assert (Rp1 : room m1 (lay Snp) 1) by (unfold room; rewrite Q; apply area_room, Ap).
    assert (Mb : forall j, (j < n)%nat -> mem m1 (xr m 2 + off j) = y j) by (intros j Hj; apply M, (outd_stack D m _ n); auto).
    assert (Mq : forall j, (j < n)%nat -> mem m1 (pq + off j) = z j) by (intros j Hj; apply M, (outd_stack D m _ n); auto).
    assert (Mp : mem m1 (lay Snp + off 0) = np).
    { unfold np. rewrite M by (apply (outd_stack D m _ 1); auto). f_equal. unfold off. lia. }
    (* the load of b *)
    assert (P1 : exists m2, exec lay (loadb n (mb1 R) 2%nat) m1 = Some m2 /\ only (if short n then mb1 R else []) m1 m2 /\ (short n = true -> forall j, (j < n)%nat -> xr m2 (ix (mb1 R) j) = y j)).
    { unfold loadb. destruct (short n).
      - do 3 (apply andb_prop in KL as [KL ?]). destruct (ldv_ok lay n (mb1 R) 2%nat m1 (xr m 2)) as (m2 & E & O & V); [auto|apply X|exact Rb1|].
        exists m2. split; [exact E|]. split; [exact O|]. intros _ j Hj. rewrite V, Mb; auto.
      - exists m1. split; [reflexivity|]. split; [apply only_refl|discriminate]. }
    destruct P1 as (m2 & E2 & O2 & V2). rewrite (exec_app _ _ _ _ _ E2).
    set (m3 := wr (wr (wr m2 4 (lay Snp)) 4 np) 6 pq).
    assert (E3 : exec lay [Adr 4 Snp; Ldr 4 4 0; Adr 6 Srawq] m2 = Some m3).
    { rewrite (exec_cons lay (Adr 4 Snp) _ m2 (wr m2 4 (lay Snp)) eq_refl). change (Ldr 4 4 0) with (Ldr 4 4 (off 0)).
      assert (E : step lay (Ldr 4 4 (off 0)) (wr m2 4 (lay Snp)) = Some (wr (wr m2 4 (lay Snp)) 4 np)).
      { rewrite (ldr_x lay 4%nat 4%nat (wr m2 4 (lay Snp)) (lay Snp) 1 0); [| apply xr_eq; lia | | lia].
        - do 2 f_equal. destruct O2 as [(M2 & _) _]. change (mem (wr m2 4 (lay Snp))) with (mem m2). rewrite M2. exact Mp.
        - destruct O2 as [S2 _]. exact (same_room _ _ _ _ S2 Rp1). }
      rewrite (exec_cons _ _ _ _ _ E). reflexivity. }
    rewrite (exec_app _ _ _ _ _ E3).
    assert (O3 : only [4; 6]%nat m2 m3).
    { apply (only_trans _ _ (wr m2 4 (lay Snp))); [apply only_wr; cbn; auto|]. apply (only_trans _ _ (wr (wr m2 4 (lay Snp)) 4 np)); apply only_wr; cbn; auto. }
    assert (X64 : xr m3 6 = pq /\ xr m3 4 = np).
    { unfold m3. rewrite xr_eq by lia. rewrite xr_ne, xr_eq by lia. auto. }
    destruct X64 as [X6 X4].
    assert (P4 : exists m4, exec lay (loadb n (mq1 R) 6%nat) m3 = Some m4 /\ only (if short n then mq1 R else []) m3 m4 /\ (short n = true -> forall j, (j < n)%nat -> xr m4 (ix (mq1 R) j) = z j)).
    { unfold loadb. destruct (short n).
      - do 3 (apply andb_prop in KL as [KL ?]). destruct (ldv_ok lay n (mq1 R) 6%nat m3 pq) as (m4 & E & O & V); auto.
        { destruct O2 as [S2 _], O3 as [S3 _]. exact (same_room _ _ _ _ (same_trans _ _ _ S2 S3) Rq1). }
        exists m4. split; [exact E|]. split; [exact O|]. intros _ j Hj. rewrite V by auto. destruct O2 as [(e2 & _) _], O3 as [(e3 & _) _]. rewrite e3, e2. auto.
      - exists m3. split; [reflexivity|]. split; [apply only_refl|discriminate]. }
    destruct P4 as (m4 & E4 & O4 & V4). exists m4. split; [exact E4|].
    assert (S4 : same m1 m4) by (destruct O2 as [S2 _], O3 as [S3 _], O4 as [S4 _]; exact (same_trans _ _ _ S2 (same_trans _ _ _ S3 S4))).
    assert (G : forall t, In t [0; 1; 2; 4; 6]%nat -> ~ In t (if short n then mb1 R else []) /\ ~ In t (if short n then mq1 R else [])).
    { intros t Ht. destruct (short n); [|cbn; tauto]. do 3 (apply andb_prop in KL as [KL ?]).
      match goal with H : disj [0; 1; 2; 4; 6]%nat _ = true |- _ => pose proof (disj_ok _ _ H t Ht) as N end. rewrite in_app_iff in N. tauto. }
    assert (X012 : forall t, In t [0; 1; 2]%nat -> xr m4 t = xr m t).
    { intros t Ht. assert (In t [0; 1; 2; 4; 6]%nat) as I by (cbn [In] in *; tauto). destruct (G t I) as [G1 G2].
      destruct O2 as [_ K2], O3 as [_ K3], O4 as [_ K4]. rewrite K4, K3, K2 by (auto || (cbn [In] in *; lia)). apply X. }
    assert (X46 : xr m4 4 = np /\ xr m4 6 = pq).
    { destruct (G 4%nat ltac:(cbn; auto)) as [_ G4]. destruct (G 6%nat ltac:(cbn; auto 6)) as [_ G6]. destruct O4 as [_ K4]. rewrite !K4 by auto. auto. }
    split.
    { assert (Ub : forall t, In t (if short n then mb1 R else []) -> In t U) by (intros t; unfold U, usedR; destruct (short n); cbn [In]; rewrite !in_app_iff; tauto).
      assert (Uq : forall t, In t (if short n then mq1 R else []) -> In t U) by (intros t; unfold U, usedR; destruct (short n); cbn [In]; rewrite !in_app_iff; tauto).
      assert (U4 : forall t, In t [4; 6]%nat -> In t U) by (intros t; unfold U, usedR; rewrite !in_app_iff; tauto).
      apply (only_trans _ _ m2 _ (only_weak _ _ _ _ Ub O2)), (only_trans _ _ m3 _ (only_weak _ _ _ _ U4 O3)), (only_weak _ _ _ _ Uq O4). }
    split; [split; [exact Hb|]|split; [split; [exact Hz|]|]].
    - unfold bo, opb. cbn [fst snd]. destruct (short n) eqn:Es.
      + intros j Hj. do 3 (apply andb_prop in KL as [KL ?]).
        match goal with H : disj (map _ _) _ = true |- _ => pose proof (disj_ok _ _ H (ix (mb1 R) j) ltac:(apply in_seq_map; lia)) as N end. rewrite in_app_iff in N.
        destruct O3 as [_ K3], O4 as [_ K4]. rewrite K4, K3 by tauto. auto.
      + rewrite X012 by (cbn; auto). split; [exact (same_room _ _ _ _ S4 Rb1)|]. destruct S4 as (-> & _). exact Mb.
    - unfold qo, opb. cbn [fst snd]. destruct (short n) eqn:Es; [auto|]. destruct X46 as [_ ->].
      split; [exact (same_room _ _ _ _ S4 Rq1)|]. destruct S4 as (-> & _). exact Mq.
    - split; [apply X012; cbn; auto|]. split; [apply X012; cbn; auto|exact X46].
  Qed.

  Lemma mul_ok : exists m', run lay None (rawMMul opt n) m = Some m' /\ kept m m' /\ outsided D m m' d n /\
    let r := num (mem m') d n in 0 <= r < q /\ (r * B ^ Z.of_nat n) mod q = (a * b) mod q.
  Proof.
    pose proof chkMul_ok as K. unfold chkMul in K. fold R bo qo q2o D in K. do 10 (apply andb_prop in K as [K ?]).
    match goal with H : (if short n then chkLdv _ _ _ && _ && _ && _ else true) = true |- _ => clear H end.
    rename H into KU, H0 into KQ2, H1 into KR2, H2 into K8, H3 into KC, H4 into KT, H5 into KK, H6 into KS, H8 into KSv.
    rename K into KRow.
    assert (KR : forall j, (j < n)%nat -> ix (mr2 R) j = ix (mr1 R) (j + 1)).
    { intros j Hj. rewrite forallb_forall in KR2. apply Nat.eqb_eq, KR2, in_seq. lia. }
    rewrite mul_code. fold R bo qo q2o.
    destruct (framed_ok lay D (msv R) m St KSv) as (m1 & R1 & X1 & Q1 & M1 & Pop). rewrite R1.
    destruct (prologue m1 X1 Q1 M1) as (m2 & E2 & O2 & Sb & Sq & D0 & D1 & D4 & D6).
    rewrite !app_assoc. rewrite <- (app_assoc (loadb n (mb1 R) 2%nat ++ _)). rewrite <- !app_assoc.
    rewrite (app_assoc (loadb n (mb1 R) 2%nat)), app_assoc, <- (app_assoc (loadb n (mb1 R) 2%nat)). rewrite (run_exec _ _ _ _ _ E2).
    assert (Ra2 : room m2 (xr m 1) n).
    { destruct O2 as [S2 _]. apply (same_room _ _ _ _ S2). unfold room. rewrite Q1. apply area_room, Aa. }
    assert (Mx : forall j, (j < n)%nat -> mem m2 (xr m 1 + off j) = x j).
    { intros j Hj. destruct O2 as [(e & _) _]. rewrite e. apply M1, (outd_stack D m _ n); auto. }
    assert (Bx : forall j, (j < n)%nat -> 0 <= x j < B) by (intros j Hj; destruct Aa as (_ & _ & _ & H); apply H, Hj).
    assert (Vb : sm y n = b) by (unfold b; rewrite sm_num; reflexivity).
    assert (Vq : sm z n = q) by (unfold q; rewrite sm_num; reflexivity).
    assert (Va : sm x n = a) by (unfold a; rewrite sm_num; reflexivity).
    destruct (rows_ok lay n (mr1 R) bo qo n0 KRow opt m2 x y z (xr m 1) np) as (m3 & E3 & O3 & Rb3 & T3 & L3 & Mq & HM); auto.
    { now rewrite Vb, Vq. } { now rewrite Vq. }
    rewrite (run_exec _ _ _ _ _ E3).
    assert (O13 : only U m1 m3) by (apply (only_trans _ _ m2 _ O2), (only_weak _ _ _ _ in_U O3)).
    assert (dx : forall t, In t [0; 1; 4; 6]%nat -> xr m3 t = xr m2 t).
    { intros t Ht. destruct O3 as [_ K3]. apply K3, (dep_x n (mr1 R) bo qo KRow). exact Ht. }
    set (s := fun j => xr m3 (ix (mr1 R) (j + 1))).
    assert (Bs : forall j, (j < n)%nat -> 0 <= s j < B) by (intros j Hj; apply Rb3; lia).
    assert (Sr : source n (mr2 R, None) s m3) by (apply src_regs; [exact Bs|]; intros j Hj; rewrite KR by auto; reflexivity).
    assert (Sq3 : source n qo z m3) by (apply (src_keep n qo z _ m2 m3 Sq O3), (dep_q n (mr1 R) bo qo KRow)).
    assert (Sq2 : source n q2o z m3).
    { destruct Sq3 as [Bz Sq3]. split; [exact Bz|]. unfold q2o, qo, opb in *. cbn [fst snd] in *. destruct (short n); [|exact Sq3].
      intros j Hj. rewrite <- Sq3 by exact Hj. f_equal. rewrite forallb_forall in KQ2. apply Nat.eqb_eq, KQ2, in_seq. lia. }
    destruct (chain_ok lay n false (mb2 R) (mr2 R, None) q2o s z m3 n0 KS Sr Sq2) as (m4 & E4 & S4 & K4 & B4 & C4 & V4).
    rewrite (run_exec _ _ _ _ _ E4). specialize (V4 KK). cbn [fst] in V4.
    assert (O4 : only U m3 m4).
    { split; [exact S4|]. intros t Ht. apply K4. intros I. apply Ht. unfold U, usedR. fold q2o. rewrite !in_app_iff. tauto. }
    assert (X8 : xr m4 8 = xr m3 8) by (apply K4, (disj_ok _ _ KT); cbn; auto).
    assert (X0 : xr m4 0 = d).
    { rewrite K4 by (apply (disj_ok _ _ KT); cbn; auto). rewrite dx by (cbn; auto). exact D0. }
    set (rr := fun j => xr m4 (ix (mb2 R) j)) in *.
    (* the comparison *)
    assert (P5 : exists m5, exec lay (cmp8 opt) m4 = Some m5 /\ only [8%nat] m4 m5 /\ fC m5 = (1 <=? top opt m3 + b2z (fC m4))).
    { unfold cmp8, top in *. destruct opt.
      - exists m4. split; [reflexivity|]. split; [apply only_refl|]. destruct (fC m4); reflexivity.
      - destruct (cmp1 m4 lay) as [C1 C2]; [lia|]. eexists. split; [exact C1|]. split; [|rewrite C2, X8; reflexivity].
        split; [repeat split|]. intros t Ht. change (xr (wr m4 8 (xr m4 8 + b2z (fC m4))) t = xr m4 t). apply xr_ne. intros ->. apply Ht. cbn; auto. }
    destruct P5 as (m5 & E5 & O5 & F5). rewrite (run_exec _ _ _ _ _ E5).
    assert (K5 : forall t, t <> 8%nat -> xr m5 t = xr m4 t) by (intros t Ht; destruct O5 as [_ K5]; apply K5; cbn; lia).
    assert (O15 : only U m1 m5).
    { apply (only_trans _ _ m3 _ O13), (only_trans _ _ m4 _ O4), (only_weak [8%nat]); [|exact O5]. intros t [<-|[]]. apply in_U. unfold wAll. cbn; auto. }
    destruct (csel_ok lay n (mr2 R) (mb2 R) 0%nat m5 d KC n0) as (m6 & E6 & s6 & q6 & K6 & W6).
    { rewrite K5 by discriminate. exact X0. }
    { destruct O15 as [(_ & e & _) _]. unfold room. rewrite e, Q1. exact Ad. }
    rewrite (run_exec _ _ _ _ _ E6).
    destruct (only_mid n R m m1 m5 X1 Q1 KU O15) as (md1 & md2 & md3 & md4).
    assert (InM : forall t, In t (mr2 R) -> In t U) by (intros t Ht; unfold U, usedR; rewrite !in_app_iff; tauto).
    destruct (Pop m6) as (m7 & E7 & K7 & M7 & _).
    { congruence. } { congruence. }
    { intros c Hc. destruct W6 as [_ W6]. rewrite W6, md3; [reflexivity|]. intros j Hj ->. exact (outd_stack _ _ _ _ _ Cd Hj Hc). }
    { intros r Hr Ns. rewrite K6; [apply md4; auto|]. intros I. rewrite forallb_forall in KU. specialize (KU r (InM r I)).
      apply orb_prop in KU as [KU|KU]; [apply Nat.ltb_lt in KU; lia|]. apply Ns. unfold isin in KU. apply existsb_exists in KU as (u & Iu & Eu). apply Nat.eqb_eq in Eu. now subst. }
    exists m7. split; [exact E7|]. split; [exact K7|]. split.
    { intros c Hc Hs. rewrite M7. destruct W6 as [_ W6]. rewrite W6, md3 by auto. apply M1. exact Hs. }
    rewrite M7, (W_num m5 m6 d _ n W6).
    assert (V8 : forall j, (j < n)%nat -> ix (mb2 R) j <> 8%nat /\ ix (mr2 R) j <> 8%nat).
    { intros j Hj. split; intros Q8; [apply (disj_ok _ _ K8 (ix (mb2 R) j))|apply (disj_ok _ _ K8 (ix (mr2 R) j))]; try (left; symmetry; exact Q8);
        apply in_or_app; [left|right]; apply in_seq_map; lia. }
    assert (Ev : sm (fun j => if fC m5 then xr m5 (ix (mb2 R) j) else xr m5 (ix (mr2 R) j)) n = if fC m5 then sm rr n else sm s n).
    { destruct (fC m5); apply sm_ext; intros j Hj; destruct (V8 j Hj); rewrite K5 by assumption; [reflexivity|]. apply V4, Hj. }
    rewrite Ev, F5. unfold chain in C4.
    pose proof (sm_bound s n Bs) as G1. pose proof (sm_bound rr n B4) as G2. pose proof (area_num _ _ _ Aq) as Nq. fold q in Nq.
    assert (Nb : 0 <= b) by (apply (area_num _ _ _ Ab)). rewrite Vq in *. rewrite Va, Vb in HM.
    apply (sel_num (sm s n) b q (B ^ Z.of_nat n) (top opt m3) (b2z (fC m4)) (sm rr n) Mq a); auto.
    - destruct (fC m4); cbn; lia.
    - lia.
    - unfold tot in L3. change (shv n (mr1 R) m3) with (sm s n) in L3. lia.
    - lia.
  Qed.
End Mul.
