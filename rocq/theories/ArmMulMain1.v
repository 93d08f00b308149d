(** The AArch64 rawMMul1 and rawFromMontgomery. *)
From Coq Require Import ZArith List Bool Lia.
From Verif Require Import Limbs Arm ArmFacts ArmRaw ArmCmp ArmZero ArmChain ArmSave ArmAdd ArmFrame ArmMul ArmMulChain ArmMulAB ArmMulRow ArmMulLoop ArmMulRow1 ArmMulLoop1 ArmCsel ArmMulMain.
Import ListNotations.
Open Scope Z_scope.

(** *** the code in the shape of the lemmas *)
Lemma row1_code opt n R i : mulRow1 opt n R i = row1f n (mr1 R) (opb n (mq1 R) 6%nat) opt i.
Proof.
  unfold mulRow1, row1f, mulRawq1, lq1, lr1, lq2, mbody, fin1, addk, mi. cbn [app fst opb]. f_equal.
  destruct (Nat.eqb i 0); [|destruct opt]; rewrite <- ?app_assoc; cbn [app andb negb].
  - f_equal; [apply flat_map_ext; intros j; rewrite ldl_ldo; unfold addr; destruct (Nat.eqb j 0); reflexivity|]. f_equal.
    f_equal; [apply flat_map_ext; intros j; rewrite ldl_ldo; unfold addr; destruct (Nat.eqb j 0); reflexivity|].
    destruct opt; [destruct (Nat.ltb i (n - 1))|]; reflexivity.
  - f_equal; [apply flat_map_ext; intros j; rewrite ldl_ldo; unfold addr; destruct (Nat.eqb j 0); reflexivity|]. do 2 f_equal.
    f_equal; [apply flat_map_ext; intros j; rewrite ldl_ldo; unfold addr; destruct (Nat.eqb j 0); reflexivity|].
    destruct (Nat.ltb i (n - 1)); reflexivity.
  - f_equal; [apply flat_map_ext; intros j; rewrite ldl_ldo; unfold addr; destruct (Nat.eqb j 0); reflexivity|]. do 2 f_equal.
    f_equal. apply flat_map_ext; intros j; rewrite ldl_ldo; unfold addr; destruct (Nat.eqb j 0); reflexivity.
Qed.
Definition consts (n : nat) (R : mregs) : list instr := [Adr 4 Snp; Ldr 4 4 0; Adr 6 Srawq] ++ loadb n (mq1 R) 6%nat.
Definition rest1 (opt : bool) (n : nat) : list instr := let R := mulregs n in
  flat_map (row1f n (mr1 R) (opb n (mq1 R) 6%nat) opt) (seq 0 n) ++
  flat_map (chainbody false (mb2 R) (mr2 R, None) (opb n (mq2 R) 6%nat)) (seq 0 n) ++ cmp8 opt ++ cselStore n (mr2 R) (mb2 R) (mr2 R) 0%nat ++ popRegs (msv R) ++ [Ret].
Definition ab1 (n : nat) (R : mregs) : list instr :=
  flat_map (abbody (mr1 R) (opb n (mb1 R) 1%nat) 2%nat) (seq 0 n) ++ (if Nat.ltb 1 n then [Adc (ix (mr1 R) n) (ix (mr1 R) n) 31] else []).
Lemma mul1_code opt n : let R := mulregs n in
  rawMMul1 opt n = pushRegs (msv R) ++ (loadb n (mb1 R) 1%nat ++ consts n R ++ ab1 n R) ++ rest1 opt n.
Proof.
  intros R. unfold rawMMul1, mulConst, mulEnd, rest1, consts, ab1. fold R. rewrite sub_code, (flat_map_ext _ _ (row1_code opt n R)).
  assert (E : mulAB n R 2%nat 1%nat = ab1 n R).
  { unfold mulAB, ab1, abbody. f_equal. apply flat_map_ext. intros j. rewrite ldl_ldo. reflexivity. }
  rewrite E. unfold ab1, loadb. rewrite <- !app_assoc. reflexivity.
Qed.
Definition evn (n : nat) : nat := if Nat.even n then n else S n.
Lemma from_code opt n : (1 <= n <= 12)%nat -> let R := mulregs n in
  rawFromMontgomery opt n = pushRegs (msv R) ++ (ldv (evn n) (firstn (evn n) (mr1 R)) 1%nat ++ [Mov (ix (mr1 R) n) 31] ++ consts n R) ++ rest1 opt n.
Proof.
  intros Hn R. unfold rawFromMontgomery, mulConst, mulEnd, rest1, consts. fold R. rewrite sub_code, (flat_map_ext _ _ (row1_code opt n R)).
  assert (E : ldv n (mr1 R) 1%nat = ldv (evn n) (firstn (evn n) (mr1 R)) 1%nat) by (unfold R; do 13 (destruct n as [|n]; [try lia; reflexivity|]); lia).
  rewrite E. unfold loadb. rewrite <- !app_assoc. reflexivity.
Qed.

Definition chk1 (n : nat) : bool :=
  let R := mulregs n in let bo1 := opb n (mb1 R) 1%nat in let k := evn n in
  msafes n (fun i => ix (cyclicCopy [7; 3]%nat n) i) (fun i => ix (mr1 R) (i + 1)) (fun i => ix (mr1 R) i) (opb n (mq1 R) 6%nat) 5%nat &&
  absafes n (mr1 R) bo1 2%nat && inclb (abtouched n (mr1 R) bo1) (wAll (mr1 R) (opb n (mb1 R) 2%nat) (opb n (mq1 R) 6%nat)) &&
  (if short n then chkLdv n (mb1 R) 1%nat else true) &&
  chkLdv k (firstn k (mr1 R)) 1%nat && forallb (fun i => Nat.eqb (ix (firstn k (mr1 R)) i) (ix (mr1 R) i)) (seq 0 n) &&
  inclb (firstn k (mr1 R)) (mr1 R) && disj (mr1 R) ([0; 1; 4; 6; 31]%nat ++ (if short n then mq1 R else [])).

Section Mul1.
  Variables (lay : sym -> Z) (n : nat) (opt : bool) (m : mach).
  Hypothesis Hn : (1 <= n <= 12)%nat.
  Let D := depth n.
  Hypothesis St : stkd D m.
  Let d := xr m 0. Let pq := lay Srawq. Let q := num (mem m) pq n. Let np := mem m (lay Snp).
  Let a := num (mem m) (xr m 1) n.
  Hypothesis Ad : room m d n. Hypothesis Cd : cleard D m d n.
  Hypothesis Aq : area m pq n. Hypothesis Cq : cleard D m pq n.
  Hypothesis Ap : area m (lay Snp) 1. Hypothesis Cp : cleard D m (lay Snp) 1.
  Hypothesis Aa : area m (xr m 1) n. Hypothesis Ca : cleard D m (xr m 1) n.
  Hypothesis Hnp : (np * q + 1) mod B = 0.
  Hypothesis Ha : a < q.
  Hypothesis Hopt : opt = true -> 2 * q <= B ^ Z.of_nat n.

  Let R := mulregs n. Let bo := opb n (mb1 R) 2%nat. Let bo1 := opb n (mb1 R) 1%nat. Let qo := opb n (mq1 R) 6%nat. Let q2o := opb n (mq2 R) 6%nat. Let U := usedR n R.
  Let x (j : nat) := mem m (xr m 1 + off j). Let z (j : nat) := mem m (pq + off j).

  Let chkMul_ok : chkMul n = true. Proof. assert (H : forallb chkMul (seq 1 12) = true) by (vm_compute; reflexivity). rewrite forallb_forall in H. apply H, in_seq. lia. Qed.
  Lemma chk1_ok : chk1 n = true.
  Proof. assert (H : forallb chk1 (seq 1 12) = true) by (vm_compute; reflexivity). rewrite forallb_forall in H. apply H, in_seq. lia. Qed.
  Let n0 : (0 < n)%nat. Proof. lia. Qed.
  Let np0 : (np * z 0%nat + 1) mod B = 0.
  Proof.
    assert (E : exists k, q = z 0%nat + B * k).
    { unfold q. rewrite sm_num. destruct n as [|k]; [lia|]. exists (sm (fun j => mem m (pq + off (S j))) k). rewrite sm_shift. reflexivity. }
    destruct E as [k E]. rewrite E in Hnp. rewrite <- Hnp. replace (np * (z 0%nat + B * k) + 1) with (np * z 0%nat + 1 + (np * k) * B) by ring.
    now rewrite Z_mod_plus_full.
  Qed.
  Let in_U t : In t (wAll (mr1 R) bo qo) -> In t U.
  Proof. intros H. unfold U, usedR. fold bo qo. rewrite !in_app_iff. auto. Qed.
  Let KRow : chkRow n (mr1 R) bo qo = true.
  Proof. pose proof chkMul_ok as K. unfold chkMul in K. fold R bo qo q2o D in K. do 10 (apply andb_prop in K as [K ?]). exact K. Qed.
  Let Vq : sm z n = q. Proof. unfold q. rewrite sm_num. reflexivity. Qed.
  Let Va : sm x n = a. Proof. unfold a. rewrite sm_num. reflexivity. Qed.

  Definition started (m1 : mach) : Prop := (forall r, xr m1 r = xr m r) /\ mapd m1 = mapd m /\ (forall c, ~ (sp m - D <= c < sp m) -> mem m1 c = mem m c).
  Let wC := [4; 6]%nat ++ (if short n then mq1 R else []).
  Lemma wC_U t : In t wC -> In t U.
  Proof. unfold wC, U, usedR. destruct (short n); rewrite !in_app_iff; cbn [In]; tauto. Qed.

  Lemma consts_ok m1 m2 : started m1 -> same m1 m2 ->
    exists m4, exec lay (consts n R) m2 = Some m4 /\ only wC m2 m4 /\ source n qo z m4 /\ xr m4 4 = np.
  Proof.
    intros (X & Q & M) S2. pose proof chkMul_ok as K. unfold chkMul in K. fold R in K. repeat (apply andb_prop in K as [K ?]).
    match goal with H : (if short n then chkLdv _ _ _ && _ && _ && _ else true) = true |- _ => rename H into KL end. clear -KL X Q M Ap Cp Aq Cq n0 St S2.
    assert (Hz : forall j, (j < n)%nat -> 0 <= z j < B) by (intros j Hj; destruct Aq as (_ & _ & _ & H); apply H, Hj).
    assert (Rq1 : room m1 pq n) by (unfold room; rewrite Q; apply area_room, Aq).
    assert (Rp1 : room m1 (lay Snp) 1) by (unfold room; rewrite Q; apply area_room, Ap).
    assert (Mq : forall j, (j < n)%nat -> mem m1 (pq + off j) = z j) by (intros j Hj; apply M, (outd_stack D m _ n); auto).
    assert (Mp : mem m1 (lay Snp + off 0) = np).
    { unfold np. rewrite M by (apply (outd_stack D m _ 1); auto). f_equal. unfold off. lia. }
    unfold consts.
    set (m3 := wr (wr (wr m2 4 (lay Snp)) 4 np) 6 pq).
    assert (E3 : exec lay [Adr 4 Snp; Ldr 4 4 0; Adr 6 Srawq] m2 = Some m3).
    { rewrite (exec_cons lay (Adr 4 Snp) _ m2 (wr m2 4 (lay Snp)) eq_refl). change (Ldr 4 4 0) with (Ldr 4 4 (off 0)).
      assert (E : step lay (Ldr 4 4 (off 0)) (wr m2 4 (lay Snp)) = Some (wr (wr m2 4 (lay Snp)) 4 np)).
      { rewrite (ldr_x lay 4%nat 4%nat (wr m2 4 (lay Snp)) (lay Snp) 1 0); [| apply xr_eq; lia | | lia].
        - do 2 f_equal. destruct S2 as (M2 & _). change (mem (wr m2 4 (lay Snp))) with (mem m2). rewrite M2. exact Mp.
        - exact (same_room _ _ _ _ S2 Rp1). }
      rewrite (exec_cons _ _ _ _ _ E). reflexivity. }
    rewrite (exec_app _ _ _ _ _ E3).
    assert (O3 : only [4; 6]%nat m2 m3).
    { apply (only_trans _ _ (wr m2 4 (lay Snp))); [apply only_wr; cbn; auto|]. apply (only_trans _ _ (wr (wr m2 4 (lay Snp)) 4 np)); apply only_wr; cbn; auto. }
    assert (X64 : xr m3 6 = pq /\ xr m3 4 = np).
    { unfold m3. rewrite xr_eq by lia. rewrite xr_ne, xr_eq by lia. auto. }
    destruct X64 as [X6 X4].
    assert (P4 : exists m4, exec lay (loadb n (mq1 R) 6%nat) m3 = Some m4 /\ only (if short n then mq1 R else []) m3 m4 /\ (short n = true -> forall j, (j < n)%nat -> xr m4 (ix (mq1 R) j) = z j)).
    { unfold loadb. destruct (short n).
      - do 3 (apply andb_prop in KL as [KL ?]). destruct (ldv_ok lay n (mq1 R) 6%nat m3 pq) as (m4 & E & O & V); auto.
        { destruct O3 as [S3 _]. exact (same_room _ _ _ _ (same_trans _ _ _ S2 S3) Rq1). }
        exists m4. split; [exact E|]. split; [exact O|]. intros _ j Hj. rewrite V by auto. destruct S2 as (e2 & _), O3 as [(e3 & _) _]. rewrite e3, e2. auto.
      - exists m3. split; [reflexivity|]. split; [apply only_refl|discriminate]. }
    destruct P4 as (m4 & E4 & O4 & V4). exists m4. split; [exact E4|].
    assert (G : forall t, In t [4; 6]%nat -> ~ In t (if short n then mq1 R else [])).
    { intros t Ht. destruct (short n); [|cbn; tauto]. do 3 (apply andb_prop in KL as [KL ?]).
      match goal with H : disj [0; 1; 2; 4; 6]%nat _ = true |- _ => pose proof (disj_ok _ _ H t ltac:(cbn [In] in *; tauto)) as N end. rewrite in_app_iff in N. tauto. }
    assert (X46 : xr m4 4 = np /\ xr m4 6 = pq).
    { destruct O4 as [_ K4]. rewrite !K4 by (apply G; cbn; auto). auto. }
    split.
    { apply (only_trans _ _ m3 _ (only_weak [4; 6]%nat wC _ _ ltac:(intros t Ht; apply in_or_app; auto) O3)), (only_weak (if short n then mq1 R else [])); [intros t Ht; apply in_or_app; auto|exact O4]. }
    split; [split; [exact Hz|]|apply X46].
    unfold qo, opb. cbn [fst snd]. destruct (short n) eqn:Es; [auto|]. destruct X46 as [_ ->].
    assert (S4 : same m1 m4) by (destruct O3 as [S3 _], O4 as [S4 _]; exact (same_trans _ _ _ S2 (same_trans _ _ _ S3 S4))).
    split; [exact (same_room _ _ _ _ S4 Rq1)|]. destruct S4 as (-> & _). exact Mq.
  Qed.

  (** rows and end *)
  Lemma rest1_ok pro T : 0 <= T <= (q - 1) * (B - 1) ->
    (forall m1, started m1 -> exists m2, exec lay pro m1 = Some m2 /\ only U m1 m2 /\ source n qo z m2 /\ rb n (mr1 R) m2 /\ val n (mr1 R) m2 = T /\ xr m2 0 = d /\ xr m2 4 = np) ->
    exists m', run lay None (pushRegs (msv R) ++ pro ++ rest1 opt n) m = Some m' /\ kept m m' /\ outsided D m m' d n /\
    let r := num (mem m') d n in 0 <= r < q /\ (r * B ^ Z.of_nat n) mod q = T mod q.
  Proof.
    intros HT Hpro.
    pose proof chkMul_ok as K. unfold chkMul in K. fold R bo qo q2o D in K. do 10 (apply andb_prop in K as [K ?]).
    match goal with H : (if short n then chkLdv _ _ _ && _ && _ && _ else true) = true |- _ => clear H end.
    rename H into KU, H0 into KQ2, H1 into KR2, H2 into K8, H3 into KC, H4 into KT, H5 into KK, H6 into KS, H8 into KSv.
    clear K.
    assert (KR : forall j, (j < n)%nat -> ix (mr2 R) j = ix (mr1 R) (j + 1)).
    { intros j Hj. rewrite forallb_forall in KR2. apply Nat.eqb_eq, KR2, in_seq. lia. }
    unfold rest1. fold R qo q2o.
    destruct (framed_ok lay D (msv R) m St KSv) as (m1 & R1 & X1 & Q1 & M1 & Pop). rewrite R1.
    destruct (Hpro m1 (conj X1 (conj Q1 M1))) as (m2 & E2 & O2 & Sq & Rb2 & V2 & D0 & D4).
    rewrite (run_exec _ _ _ _ _ E2).
    pose proof chk1_ok as H1. unfold chk1 in H1. fold R qo in H1. do 7 (apply andb_prop in H1 as [H1 _]).
    destruct (rows1_ok lay n (mr1 R) bo qo n0 KRow H1 opt m2 z T np) as (m3 & E3 & O3 & Rb3 & T3 & [_ L3] & Mq & HM); auto.
    { now rewrite Vq. } { now rewrite Vq. }
    rewrite (run_exec _ _ _ _ _ E3).
    assert (O13 : only U m1 m3) by (apply (only_trans _ _ m2 _ O2), (only_weak _ _ _ _ in_U O3)).
    assert (dx : forall t, In t [0; 1; 4; 6]%nat -> xr m3 t = xr m2 t).
    { intros t Ht. destruct O3 as [_ K3]. apply K3, (dep_x n (mr1 R) bo qo KRow). exact Ht. }
    set (s := fun j => xr m3 (ix (mr1 R) (j + 1))).
    assert (Bs : forall j, (j < n)%nat -> 0 <= s j < B) by (intros j Hj; apply Rb3; lia).
    assert (Sr : source n (mr2 R, None) s m3) by (apply src_regs; [exact Bs|]; intros j Hj; rewrite KR by auto; reflexivity).
    assert (Sq3 : source n qo z m3) by (apply (src_keep n qo z _ m2 m3 Sq O3), (dep_q n (mr1 R) bo qo KRow)).
    assert (Sq2 : source n q2o z m3).
    { destruct Sq3 as [Bz Sq3]. split; [exact Bz|]. unfold q2o, qo, opb in *. cbn [fst snd] in *. destruct (short n); [|exact Sq3].
      intros j Hj. rewrite <- Sq3 by exact Hj. f_equal. rewrite forallb_forall in KQ2. apply Nat.eqb_eq, KQ2, in_seq. lia. }
    destruct (chain_ok lay n false (mb2 R) (mr2 R, None) q2o s z m3 n0 KS Sr Sq2) as (m4 & E4 & S4 & K4 & B4 & C4 & V4).
    rewrite (run_exec _ _ _ _ _ E4). specialize (V4 KK). cbn [fst] in V4.
    assert (O4 : only U m3 m4).
    { split; [exact S4|]. intros t Ht. apply K4. intros I. apply Ht. unfold U, usedR. fold q2o. rewrite !in_app_iff. tauto. }
    assert (X8 : xr m4 8 = xr m3 8) by (apply K4, (disj_ok _ _ KT); cbn; auto).
    assert (X0 : xr m4 0 = d).
    { rewrite K4 by (apply (disj_ok _ _ KT); cbn; auto). rewrite dx by (cbn; auto). exact D0. }
    set (rr := fun j => xr m4 (ix (mb2 R) j)) in *.
    (* the comparison *)
    assert (P5 : exists m5, exec lay (cmp8 opt) m4 = Some m5 /\ only [8%nat] m4 m5 /\ fC m5 = (1 <=? top opt m3 + b2z (fC m4))).
    { unfold cmp8, top in *. destruct opt.
      - exists m4. split; [reflexivity|]. split; [apply only_refl|]. destruct (fC m4); reflexivity.
      - destruct (cmp1 m4 lay) as [C1 C2]; [lia|]. eexists. split; [exact C1|]. split; [|rewrite C2, X8; reflexivity].
        split; [repeat split|]. intros t Ht. change (xr (wr m4 8 (xr m4 8 + b2z (fC m4))) t = xr m4 t). apply xr_ne. intros ->. apply Ht. cbn; auto. }
    destruct P5 as (m5 & E5 & O5 & F5). rewrite (run_exec _ _ _ _ _ E5).
    assert (K5 : forall t, t <> 8%nat -> xr m5 t = xr m4 t) by (intros t Ht; destruct O5 as [_ K5]; apply K5; cbn; lia).
    assert (O15 : only U m1 m5).
    { apply (only_trans _ _ m3 _ O13), (only_trans _ _ m4 _ O4), (only_weak [8%nat]); [|exact O5]. intros t [<-|[]]. apply in_U. unfold wAll. cbn; auto. }
    destruct (csel_ok lay n (mr2 R) (mb2 R) 0%nat m5 d KC n0) as (m6 & E6 & s6 & q6 & K6 & W6).
    { rewrite K5 by discriminate. exact X0. }
    { destruct O15 as [(_ & e & _) _]. unfold room. rewrite e, Q1. exact Ad. }
    rewrite (run_exec _ _ _ _ _ E6).
    destruct (only_mid n R m m1 m5 X1 Q1 KU O15) as (md1 & md2 & md3 & md4).
    assert (InM : forall t, In t (mr2 R) -> In t U) by (intros t Ht; unfold U, usedR; rewrite !in_app_iff; tauto).
    destruct (Pop m6) as (m7 & E7 & K7 & M7 & _).
    { congruence. } { congruence. }
    { intros c Hc. destruct W6 as [_ W6]. rewrite W6, md3; [reflexivity|]. intros j Hj ->. exact (outd_stack _ _ _ _ _ Cd Hj Hc). }
    { intros r Hr Ns. rewrite K6; [apply md4; auto|]. intros I. rewrite forallb_forall in KU. specialize (KU r (InM r I)).
      apply orb_prop in KU as [KU|KU]; [apply Nat.ltb_lt in KU; lia|]. apply Ns. unfold isin in KU. apply existsb_exists in KU as (u & Iu & Eu). apply Nat.eqb_eq in Eu. now subst. }
    exists m7. split; [exact E7|]. split; [exact K7|]. split.
    { intros c Hc Hs. rewrite M7. destruct W6 as [_ W6]. rewrite W6, md3 by auto. apply M1. exact Hs. }
    rewrite M7, (W_num m5 m6 d _ n W6).
    assert (V8 : forall j, (j < n)%nat -> ix (mb2 R) j <> 8%nat /\ ix (mr2 R) j <> 8%nat).
    { intros j Hj. split; intros Q8; [apply (disj_ok _ _ K8 (ix (mb2 R) j))|apply (disj_ok _ _ K8 (ix (mr2 R) j))]; try (left; symmetry; exact Q8);
        apply in_or_app; [left|right]; apply in_seq_map; lia. }
    assert (Ev : sm (fun j => if fC m5 then xr m5 (ix (mb2 R) j) else xr m5 (ix (mr2 R) j)) n = if fC m5 then sm rr n else sm s n).
    { destruct (fC m5); apply sm_ext; intros j Hj; destruct (V8 j Hj); rewrite K5 by assumption; [reflexivity|]. apply V4, Hj. }
    rewrite Ev, F5. unfold chain in C4.
    pose proof (sm_bound s n Bs) as G1. pose proof (sm_bound rr n B4) as G2. pose proof (area_num _ _ _ Aq) as Nq. fold q in Nq.
    pose proof (area_num _ _ _ Aa) as Na. fold a in Na. rewrite Vq in *.
    rewrite <- (Z.mul_1_r T). apply (sel_num (sm s n) 1 q (B ^ Z.of_nat n) (top opt m3) (b2z (fC m4)) (sm rr n) Mq T); auto.
    - destruct (fC m4); cbn; lia.
    - lia.
    - unfold tot in L3. change (shv n (mr1 R) m3) with (sm s n) in L3. lia.
    - rewrite Z.mul_1_r. unfold tot in HM. rewrite <- Vq. exact HM || (rewrite Vq; exact HM).
  Qed.

  Lemma mul1_ok : 0 <= xr m 2 < B ->
    exists m', run lay None (rawMMul1 opt n) m = Some m' /\ kept m m' /\ outsided D m m' d n /\
    let r := num (mem m') d n in 0 <= r < q /\ (r * B ^ Z.of_nat n) mod q = (a * xr m 2) mod q.
  Proof.
    intros H2. rewrite mul1_code. fold R. apply rest1_ok.
    { pose proof (area_num _ _ _ Aa) as Na. fold a in Na. split; [nia|]. apply Z.mul_le_mono_nonneg; lia. }
    intros m1 (X & Q & M).
    pose proof chkMul_ok as K. unfold chkMul in K. fold R in K. do 10 (apply andb_prop in K as [K ?]).
    match goal with H : (if short n then chkLdv _ _ _ && _ && _ && _ else true) = true |- _ => rename H into KL end.
    clear K; repeat match goal with H : ?u = true |- _ => lazymatch type of H with _ => match H with KL => fail 1 | chkMul_ok => fail 1 | KRow => fail 1 | _ => clear H end end end.
    pose proof chk1_ok as C. unfold chk1 in C. fold R bo bo1 qo in C. do 7 (apply andb_prop in C as [C ?]).
    rename H6 into CA, H5 into CI, H4 into CL.
    assert (Hx : forall j, (j < n)%nat -> 0 <= x j < B) by (intros j Hj; destruct Aa as (_ & _ & _ & H'); apply H', Hj).
    assert (Ra1 : room m1 (xr m 1) n) by (unfold room; rewrite Q; apply area_room, Aa).
    assert (Mx : forall j, (j < n)%nat -> mem m1 (xr m 1 + off j) = x j) by (intros j Hj; apply M, (outd_stack D m _ n); auto).
    assert (P1 : exists m2, exec lay (loadb n (mb1 R) 1%nat) m1 = Some m2 /\ only (if short n then mb1 R else []) m1 m2 /\ (short n = true -> forall j, (j < n)%nat -> xr m2 (ix (mb1 R) j) = x j)).
    { unfold loadb. destruct (short n).
      - destruct (ldv_ok lay n (mb1 R) 1%nat m1 (xr m 1)) as (m2 & E & O & V); [auto|apply X|exact Ra1|].
        exists m2. split; [exact E|]. split; [exact O|]. intros _ j Hj. rewrite V, Mx; auto.
      - exists m1. split; [reflexivity|]. split; [apply only_refl|discriminate]. }
    destruct P1 as (m2 & E2 & O2 & V2). rewrite (exec_app _ _ _ _ _ E2).
    destruct (consts_ok m1 m2) as (m3 & E3 & O3 & Sq3 & X4); [exact (conj X (conj Q M))|apply O2|].
    rewrite (exec_app _ _ _ _ _ E3).
    assert (G : forall t, In t [0; 1; 2]%nat -> xr m3 t = xr m t).
    { intros t Ht. assert (N : ~ In t (if short n then mb1 R else []) /\ ~ In t (if short n then mq1 R else [])).
      { destruct (short n); [|cbn; tauto]. do 3 (apply andb_prop in KL as [KL ?]).
        match goal with H : disj [0; 1; 2; 4; 6]%nat _ = true |- _ => pose proof (disj_ok _ _ H t ltac:(cbn [In] in *; tauto)) as N end. rewrite in_app_iff in N. tauto. }
      destruct O2 as [_ K2], O3 as [_ K3]. rewrite K3, K2; [apply X|tauto|]. unfold wC. rewrite in_app_iff. cbn [In] in *. intros [I|I]; [lia|tauto]. }
    assert (Sx : source n bo1 x m3).
    { split; [exact Hx|]. unfold bo1, opb. cbn [fst snd]. destruct (short n) eqn:Es.
      - intros j Hj. do 3 (apply andb_prop in KL as [KL ?]).
        match goal with H : disj (map _ _) _ = true |- _ => pose proof (disj_ok _ _ H (ix (mb1 R) j) ltac:(apply in_seq_map; lia)) as N end.
        destruct O3 as [_ K3]. rewrite K3; [auto|]. unfold wC. rewrite ?Es. exact N.
      - rewrite G by (cbn; auto). assert (S3 : same m1 m3) by (destruct O2 as [S2 _], O3 as [S3 _]; exact (same_trans _ _ _ S2 S3)).
        split; [exact (same_room _ _ _ _ S3 Ra1)|]. destruct S3 as (-> & _). exact Mx. }
    destruct (ab_ok n (mr1 R) bo1 2%nat lay m3 x (xr m 2) n0 CA Sx) as (m4 & E4 & S4 & K4 & B4 & V4); [apply G; cbn; auto|exact H2|].
    assert (O4 : only (wAll (mr1 R) bo qo) m3 m4).
    { split; [exact S4|]. intros t Ht. apply K4. intros I. exact (inclb_ok _ _ CI t Ht I). }
    exists m4. split; [exact E4|]. split.
    { assert (Ub : forall t, In t (if short n then mb1 R else []) -> In t U) by (intros t; unfold U, usedR; destruct (short n); cbn [In]; rewrite !in_app_iff; tauto).
      apply (only_trans _ _ m2 _ (only_weak _ _ _ _ Ub O2)), (only_trans _ _ m3 _ (only_weak _ _ _ _ wC_U O3)), (only_weak _ _ _ _ in_U O4). }
    split; [exact (src_keep n qo z _ m3 m4 Sq3 O4 (dep_q n (mr1 R) bo qo KRow))|]. split; [exact B4|].
    split; [unfold val; rewrite V4, Va; reflexivity|]. destruct O4 as [_ K5].
    split; rewrite K5 by (apply (dep_x n (mr1 R) bo qo KRow); cbn; auto); [apply G; cbn; auto|exact X4].
  Qed.

  Lemma from_ok : room m (xr m 1) (evn n) ->
    exists m', run lay None (rawFromMontgomery opt n) m = Some m' /\ kept m m' /\ outsided D m m' d n /\
    let r := num (mem m') d n in 0 <= r < q /\ (r * B ^ Z.of_nat n) mod q = a mod q.
  Proof.
    intros Re. rewrite from_code by exact Hn. fold R. pose proof (area_num _ _ _ Aa) as Na. fold a in Na. apply rest1_ok.
    { split; [lia|]. assert (EB : B = 18446744073709551616) by reflexivity. nia. }
    intros m1 (X & Q & M).
    pose proof chk1_ok as C. unfold chk1 in C. fold R bo bo1 qo in C. do 7 (apply andb_prop in C as [C ?]).
    rename H into CD, H0 into CI, H1 into CE, H2 into CL.
    assert (Hx : forall j, (j < n)%nat -> 0 <= x j < B) by (intros j Hj; destruct Aa as (_ & _ & _ & H'); apply H', Hj).
    assert (Mx : forall j, (j < n)%nat -> mem m1 (xr m 1 + off j) = x j) by (intros j Hj; apply M, (outd_stack D m _ n); auto).
    assert (Ev : (n <= evn n)%nat) by (unfold evn; destruct (Nat.even n); lia).
    destruct (ldv_ok lay (evn n) (firstn (evn n) (mr1 R)) 1%nat m1 (xr m 1) CL) as (m2 & E2 & O2 & V2); [apply X|unfold room; rewrite Q; exact Re|].
    rewrite (exec_app _ _ _ _ _ E2).
    assert (E3 : exec lay [Mov (ix (mr1 R) n) 31] m2 = Some (wr m2 (ix (mr1 R) n) 0)) by reflexivity.
    rewrite (exec_app _ _ _ _ _ E3). set (m3 := wr m2 (ix (mr1 R) n) 0) in *.
    assert (In1 : forall j, (j <= n)%nat -> In (ix (mr1 R) j) (mr1 R)) by (intros; eapply (rin n (mr1 R)); eassumption).
    assert (O3 : only (mr1 R) m1 m3).
    { apply (only_trans _ _ m2); [apply (only_weak (firstn (evn n) (mr1 R))); [intros t I; destruct (in_dec Nat.eq_dec t (mr1 R)); [assumption|exfalso; exact (inclb_ok _ _ CI t n1 I)]|exact O2]|]. apply only_wr, In1; lia. }
    destruct (consts_ok m1 m3) as (m4 & E4 & O4 & Sq4 & X4); [exact (conj X (conj Q M))|apply O3|].
    exists m4. split; [exact E4|].
    assert (Vj : forall j, (j <= n)%nat -> xr m4 (ix (mr1 R) j) = if Nat.eqb j n then 0 else x j).
    { intros j Hj. destruct O4 as [_ K4]. rewrite K4.
      - destruct (Nat.eqb_spec j n) as [->|N].
        + apply xr_eq. intros Q31. apply (disj_ok _ _ CD (ix (mr1 R) n)); [apply In1; lia|]. rewrite Q31. apply in_or_app. cbn; auto 10.
        + unfold m3. rewrite xr_ne by (apply (rdist n (mr1 R) bo qo n0 KRow); lia).
          rewrite forallb_forall in CE. specialize (CE j ltac:(apply in_seq; lia)). apply Nat.eqb_eq in CE. rewrite <- CE, V2 by lia. apply Mx. lia.
      - intros I. apply (disj_ok _ _ CD (ix (mr1 R) j)); [apply In1; lia|]. unfold wC in I. apply in_app_or in I as [I|I]; apply in_or_app; [left|right; exact I]. cbn [In] in *. lia. }
    split.
    { apply (only_trans _ _ m3 _ (only_weak _ _ _ _ (fun t Ht => in_U t ltac:(unfold wAll; do 4 right; apply in_or_app; left; exact Ht)) O3)), (only_weak _ _ _ _ wC_U O4). }
    split; [exact Sq4|]. split.
    { intros j Hj. rewrite Vj by exact Hj. destruct (Nat.eqb_spec j n); [split; reflexivity || discriminate|apply Hx; lia]. }
    split.
    { rewrite val_top, Vj, Nat.eqb_refl by lia. rewrite <- Va. rewrite Z.mul_0_l, Z.add_0_r. apply sm_ext. intros j Hj. rewrite Vj by lia.
      destruct (Nat.eqb_spec j n); [lia|reflexivity]. }
    split; [|exact X4]. destruct O3 as [_ K3], O4 as [_ K4]. rewrite K4, K3; [apply X| |].
    - intros I. apply (disj_ok _ _ CD 0%nat I). apply in_or_app. cbn; auto.
    - unfold wC. intros I. apply in_app_or in I as [I|I]; [cbn in I; lia|].
      pose proof chkMul_ok as K. unfold chkMul in K. fold R in K. do 10 (apply andb_prop in K as [K ?]).
      match goal with H : (if short n then chkLdv _ _ _ && _ && _ && _ else true) = true |- _ => rename H into KL end.
      destruct (short n); [|exact I]. do 3 (apply andb_prop in KL as [KL ?]).
      match goal with H : disj [0; 1; 2; 4; 6]%nat _ = true |- _ => apply (disj_ok _ _ H 0%nat); [cbn; auto|apply in_or_app; auto] end.
  Qed.
End Mul1.
