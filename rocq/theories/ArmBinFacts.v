(** The AArch64 bitwise operations. *)
From Coq Require Import ZArith List Bool Lia.
From Verif Require Import Limbs LimbsFacts Arm ArmFacts ArmRaw ArmCmp ArmZero ArmChain ArmSave ArmAdd ArmMul ArmMulChain ArmCsel ArmBin.
Import ListNotations.
Open Scope Z_scope.
Ltac Zify.zify_post_hook ::= idtac.

Definition wordop (k : binop) (x y : Z) : Z :=
  match k with BAnd => Z.land x y | BOr => Z.lor x y | BXor => Z.lxor x y | BNot => B - 1 - x end.
Definition numop (k : binop) (n : nat) (x y : Z) : Z :=
  match k with BAnd => Z.land x y | BOr => Z.lor x y | BXor => Z.lxor x y | BNot => B ^ Z.of_nat n - 1 - x end.
Definition bitbody (k : binop) (r : list reg) (a b : opr) (i : nat) : list instr :=
  ldo a i ++ ldo b i ++ [binins k (ix r i) (ix (fst a) i) (ix (fst b) i)].

Lemma bits_ok lay n k r a b x y m : (0 < n)%nat -> safes n r a b = true -> source n a x m -> source n b y m ->
  exists m', exec lay (flat_map (bitbody k r a b) (seq 0 n)) m = Some m' /\ same m m' /\
    (forall t, ~ In t (touched n r a b) -> xr m' t = xr m t) /\
    (forall j, (j < n)%nat -> xr m' (ix r j) = wordop k (x j) (y j)).
Proof.
  intros Hn Hsafe Sa Sb. unfold safes in Hsafe. apply andb_prop in Hsafe as [Hl Hsafe]. apply andb_prop in Hl as [Hla Hlb].
  rewrite forallb_forall in Hsafe.
  destruct Sa as [Bx Sa]. destruct Sb as [By Sb].
  destruct (exec_loop lay (bitbody k r a b) (fun i m' =>
     same m m' /\ (forall t, ~ In t (touched n r a b) -> xr m' t = xr m t) /\
     (forall t, In t (bases a ++ bases b) -> xr m' t = xr m t) /\
     avail n a x i m' /\ avail n b y i m' /\
     (forall j, (j < i)%nat -> xr m' (ix r j) = wordop k (x j) (y j))) n m)
    as (m' & E & I1 & I2 & _ & _ & _ & I3).
  - intros i m1 Hi (S1 & T1 & Bs1 & A1 & A1' & G1).
    assert (Hs := Hsafe i ltac:(apply in_seq; lia)). unfold safe in Hs.
    repeat (apply andb_prop in Hs as [Hs ?]).
    rename H into Dr, H0 into Dba, H1 into Dab, H2 into D2b, H3 into D2a, H4 into Db. rename Hs into Da.
    assert (Src : forall o z m2, same m m2 -> (forall b0, snd o = Some b0 -> xr m2 b0 = xr m b0) ->
              match snd o with
              | Some b => room m (xr m b) n /\ (forall j, (j < n)%nat -> mem m (xr m b + off j) = z j)
              | None => forall j, (j < n)%nat -> xr m (ix (fst o) j) = z j end ->
              exists p, forall b0, snd o = Some b0 -> xr m2 b0 = p /\ room m2 p n /\ (forall j, (j < n)%nat -> mem m2 (p + off j) = z j)).
    { intros o z m2 S2 Hb Hz. destruct (snd o) as [b0|]; [|exists 0; discriminate].
      exists (xr m b0). intros b1 [= <-]. destruct Hz as [Hz1 Hz2]. pose proof S2 as (q1 & _).
      split; [auto|]. split; [apply (same_room m); auto|]. rewrite q1. exact Hz2. }
    assert (Ba : forall b0, snd a = Some b0 -> In b0 (bases a ++ bases b)) by (intros b0 E0; apply in_or_app; left; unfold bases; rewrite E0; left; reflexivity).
    assert (Bb : forall b0, snd b = Some b0 -> In b0 (bases a ++ bases b)) by (intros b0 E0; apply in_or_app; right; unfold bases; rewrite E0; left; reflexivity).
    destruct (Src a x m1 S1 ltac:(intros; apply Bs1, Ba; auto) Sa) as [pa Pa].
    destruct (ldo_ok lay n a x i m1 pa) as (m2 & E2 & S2 & F2 & K2 & V2 & W2); auto.
    { apply (disj_sub _ _ _ Da). intros t [<-|[]]. left. reflexivity. }
    assert (Bs2 : forall t, In t (bases a ++ bases b) -> xr m2 t = xr m t).
    { intros t Ht. rewrite K2; [auto|]. intros I. apply (disj_ok _ _ Da t I). right. rewrite app_assoc. apply in_or_app. left. exact Ht. }
    destruct (Src b y m2 (same_trans _ _ _ S1 S2) ltac:(intros; apply Bs2, Bb; auto) Sb) as [pb Pb].
    destruct (ldo_ok lay n b y i m2 pb) as (m3 & E3 & S3 & F3 & K3 & V3 & W3); auto.
    { apply (disj_sub _ _ _ Db). intros t [<-|[]]. left. reflexivity. }
    { pose proof (disj_ok _ _ Dab) as Q. unfold avail in *. destruct (snd b) as [b0|] eqn:Eb.
      - intros Ev Hi'. rewrite K2; [auto|]. intros I. rewrite Ev in Q. apply (Q _ I). unfold pend. rewrite Eb. left. reflexivity.
      - intros j Hj. rewrite K2; [auto|]. intros I. apply (Q _ I). unfold pend. rewrite Eb. apply in_seq_map. lia. }
    assert (Xa : forall t, In t (pend n a i) -> xr m3 t = xr m2 t).
    { intros t Ht. apply K3. intros I. exact (disj_ok _ _ Dba t I Ht). }
    assert (V2' : xr m3 (ix (fst a) i) = x i).
    { rewrite Xa; [exact V2|]. unfold pend. destruct (snd a); [left; reflexivity|]. apply in_seq_map. lia. }
    set (m4 := wr m3 (ix r i) (wordop k (x i) (y i))).
    assert (E4 : exec lay [binins k (ix r i) (ix (fst a) i) (ix (fst b) i)] m3 = Some m4).
    { unfold m4. rewrite <- V2', <- V3. destruct k; reflexivity. }
    assert (S4 : same m3 m4) by (repeat split).
    assert (X4 : xr m4 (ix r i) = wordop k (x i) (y i)).
    { apply xr_eq. intros Q. apply (disj_ok _ _ Dr (ix r i)); [left; reflexivity|left; auto]. }
    assert (F4 : forall t, t <> ix r i -> xr m4 t = xr m3 t) by (intros; apply xr_ne; auto).
    clearbody m4.
    pose proof (disj_ok _ _ Dr (ix r i) ltac:(left; reflexivity)) as Nr. cbn [In] in Nr. rewrite !in_app_iff in Nr.
    assert (Old : forall j, (j < i)%nat -> xr m4 (ix r j) = xr m1 (ix r j)).
    { intros j Hj. assert (Ij : In (ix r j) (map (ix r) (seq 0 i))) by (apply in_seq_map; lia).
      rewrite F4 by (intros Q; rewrite Q in Ij; tauto).
      rewrite K3, K2; [reflexivity| |]; intros I.
      - apply (disj_ok _ _ Da _ I). right. rewrite !in_app_iff. auto.
      - apply (disj_ok _ _ Db _ I). right. rewrite !in_app_iff. auto. }
    exists m4. split.
    { unfold bitbody. rewrite (exec_app _ _ _ _ _ E2), (exec_app _ _ _ _ _ E3). exact E4. }
    split. { apply (same_trans _ m1); auto. exact (same_trans _ _ _ S2 (same_trans _ _ _ S3 S4)). }
    split.
    { intros t Ht. unfold touched in Ht. rewrite !in_app_iff in Ht.
      rewrite F4. 2:{ intros ->. apply Ht. left. apply in_seq_map. lia. }
      rewrite K3, K2.
      - apply T1. unfold touched. rewrite !in_app_iff. exact Ht.
      - intros I. apply Ht. right. left. unfold loads in I. destruct (snd a); [|destruct I]. destruct (Nat.even i); [|destruct I].
        destruct I as [<-|I]; [apply in_seq_map; lia|]. destruct (Nat.ltb_spec (i + 1) n); [|destruct I].
        destruct I as [<-|[]]. apply in_seq_map. lia.
      - intros I. apply Ht. right. right. unfold loads in I. destruct (snd b); [|destruct I]. destruct (Nat.even i); [|destruct I].
        destruct I as [<-|I]; [apply in_seq_map; lia|]. destruct (Nat.ltb_spec (i + 1) n); [|destruct I].
        destruct I as [<-|[]]. apply in_seq_map. lia. }
    split.
    { intros t Ht. rewrite F4. 2:{ intros ->. rewrite in_app_iff in Ht. tauto. }
      rewrite K3; [auto|]. intros I. apply (disj_ok _ _ Db _ I). right. rewrite app_assoc, in_app_iff. auto. }
    assert (Av : forall o z, (forall t, In t (pend' n o i) -> xr m4 t = xr m3 t) ->
       match snd o with
       | Some _ => Nat.even i = true -> (i + 1 < n)%nat -> xr m3 (ix (fst o) (i + 1)) = z (i + 1)%nat
       | None => forall j, (i <= j < n)%nat -> xr m3 (ix (fst o) j) = z j end -> avail n o z (S i) m4).
    { intros o z Hp Hz. unfold avail, pend' in *. destruct (snd o).
      - intros Ev Hi'. rewrite ev_S in Ev. apply negb_false_iff in Ev.
        assert (Hi2 : (i + 1 < n)%nat) by lia. apply Nat.ltb_lt in Hi2 as Hi3. rewrite Ev, Hi3 in Hp.
        replace (S i) with (i + 1)%nat by lia. rewrite Hp by (left; reflexivity). apply Hz; auto.
      - intros j Hj. rewrite Hp; [apply Hz; lia|]. apply in_seq_map. lia. }
    split.
    { apply Av. { intros t Ht. apply F4. intros ->. tauto. }
      unfold pend in Xa. destruct (snd a).
      - intros Ev Hi'. rewrite Xa; [auto|]. apply Nat.ltb_lt in Hi'. rewrite Ev, Hi'. right. left. reflexivity.
      - intros j Hj. rewrite Xa; [auto|]. apply in_seq_map. lia. }
    split.
    { apply Av. { intros t Ht. apply F4. intros ->. tauto. } exact W3. }
    intros j Hj. destruct (Nat.eq_dec j i) as [->|N]; [exact X4|]. rewrite Old by lia. apply G1. lia.
  - split; [apply same_refl|]. split; [auto|]. split; [auto|].
    assert (A0 : forall o z, match snd o with
              | Some b => room m (xr m b) n /\ (forall j, (j < n)%nat -> mem m (xr m b + off j) = z j)
              | None => forall j, (j < n)%nat -> xr m (ix (fst o) j) = z j end -> avail n o z 0 m).
    { intros o z Hz. unfold avail. destruct (snd o); [discriminate|]. intros j Hj. apply Hz. lia. }
    split; [apply A0, Sa|]. split; [apply A0, Sb|]. lia.
  - exists m'. auto.
Qed.

(** *** words and numbers *)
Section Bits.
  Variables (f : Z -> Z -> Z) (fb : bool -> bool -> bool).
  Hypothesis f_spec : forall a b i, 0 <= i -> Z.testbit (f a b) i = fb (Z.testbit a i) (Z.testbit b i).
  Hypothesis fb_ff : fb false false = false.
  Hypothesis f_nonneg : forall a b, 0 <= a -> 0 <= b -> 0 <= f a b.
  Lemma sm_bits n : forall x y, (forall j, (j < n)%nat -> 0 <= x j < B) -> (forall j, (j < n)%nat -> 0 <= y j < B) ->
    sm (fun j => f (x j) (y j)) n = f (sm x n) (sm y n).
  Proof.
    induction n as [|n IH]; intros x y Hx Hy.
    - cbn [sm]. apply Z.bits_inj'. intros i Hi. rewrite f_spec, !Z.bits_0 by lia. auto.
    - rewrite !sm_shift, (IH (fun j => x (S j)) (fun j => y (S j))) by (intros; apply Hx || apply Hy; lia).
      apply Z.bits_inj'. intros i Hi. pose proof (Hx 0%nat ltac:(lia)). pose proof (Hy 0%nat ltac:(lia)).
      rewrite f_spec, !testbit_split by (auto; apply (bitop_word f fb); auto).
      destruct (i <? 64) eqn:E; rewrite f_spec; auto; lia.
  Qed.
End Bits.
Lemma sm_not n : forall x, sm (fun j => B - 1 - x j) n = B ^ Z.of_nat n - 1 - sm x n.
Proof.
  induction n as [|n IH]; intros x; [reflexivity|]. cbn [sm]. rewrite IH, Nat2Z.inj_succ, Z.pow_succ_r by lia. ring.
Qed.
Lemma sm_op k n x y : (forall j, (j < n)%nat -> 0 <= x j < B) -> (forall j, (j < n)%nat -> 0 <= y j < B) ->
  sm (fun j => wordop k (x j) (y j)) n = numop k n (sm x n) (sm y n).
Proof.
  intros Hx Hy. destruct k; cbn [wordop numop].
  - apply (sm_bits Z.land andb); auto using land_nonneg'. intros; apply Z.land_spec.
  - apply (sm_bits Z.lor orb); auto using lor_nonneg'. intros; apply Z.lor_spec.
  - apply (sm_bits Z.lxor xorb); auto using lxor_nonneg'. intros; apply Z.lxor_spec.
  - apply sm_not.
Qed.
Lemma op_range k x y : 0 <= x < B -> 0 <= y < B -> 0 <= wordop k x y < B.
Proof.
  intros Hx Hy. destruct k; cbn [wordop]; [| | |lia].
  - apply (bitop_word Z.land andb); auto using land_nonneg'. intros; apply Z.land_spec.
  - apply (bitop_word Z.lor orb); auto using lor_nonneg'. intros; apply Z.lor_spec.
  - apply (bitop_word Z.lxor xorb); auto using lxor_nonneg'. intros; apply Z.lxor_spec.
Qed.
(** the top word masked *)
Definition topm (n : nat) (M : Z) (f : nat -> Z) (j : nat) : Z := if Nat.eqb j (n - 1) then Z.land (f j) M else f j.
Lemma mask_num n M k f : (0 < n)%nat -> 0 <= M -> 0 <= k -> (M + 1) * B ^ Z.of_nat (n - 1) = 2 ^ k ->
  (forall j, (j < n)%nat -> 0 <= f j < B) -> sm (topm n M f) n = sm f n mod 2 ^ k.
Proof.
  intros Hn HM Hk E Hf. destruct n as [|n]; [lia|]. replace (S n - 1)%nat with n in E by lia.
  assert (EB : B ^ Z.of_nat n = 2 ^ (64 * Z.of_nat n)) by (rewrite Z.pow_mul_r by lia; reflexivity).
  assert (P0 : 0 < B ^ Z.of_nat n) by (apply Z.pow_pos_nonneg; [reflexivity|lia]).
  assert (Le : 64 * Z.of_nat n <= k). { apply (Z.pow_le_mono_r_iff 2); [lia|lia|]. rewrite <- EB, <- E. nia. }
  assert (EM : M + 1 = 2 ^ (k - 64 * Z.of_nat n)).
  { apply (Z.mul_reg_r _ _ (B ^ Z.of_nat n)); [lia|]. rewrite E, EB, <- Z.pow_add_r by lia. f_equal. lia. }
  assert (Mo : M = Z.ones (k - 64 * Z.of_nat n)) by (rewrite Z.ones_equiv; lia).
  cbn [sm]. unfold topm at 2. replace (S n - 1)%nat with n by lia. rewrite Nat.eqb_refl, Mo, Z.land_ones by lia. rewrite <- EM.
  rewrite (sm_ext (topm (S n) _ f) f n).
  2:{ intros j Hj. unfold topm. replace (S n - 1)%nat with n by lia. destruct (Nat.eqb_spec j n); [lia|reflexivity]. }
  rewrite <- E. pose proof (sm_bound f n ltac:(intros; apply Hf; lia)) as Bf. set (P := B ^ Z.of_nat n) in *. set (L := sm f n) in *.
  pose proof (Z.div_mod (f n) (M + 1) ltac:(lia)) as D. pose proof (Z.mod_pos_bound (f n) (M + 1) ltac:(lia)) as D'.
  apply (Z.mod_unique_pos _ _ (f n / (M + 1))); [nia|]. transitivity (L + ((M + 1) * (f n / (M + 1)) + f n mod (M + 1)) * P); [rewrite <- D; reflexivity|ring].
Qed.

(** *** the routine *)
Definition bopr (k : binop) (n : nat) (w : list reg) : opr := match k with BNot => (repeat 31%nat n, None) | _ => (cyclicCopy w n, Some 2%nat) end.
Definition codeT (k : binop) (n : nat) (t : list reg * list reg * list reg * list reg) : list instr := let '(w, r1, r2, sv) := t in
  pushRegs sv ++ flat_map (bitbody k r1 (r1, Some 1%nat) (bopr k n w)) (seq 0 n) ++ lboMask (ix r1 (n - 1)) 2%nat ++ [Adr 3 Srawq] ++
    flat_map (chainbody false r2 (r1, None) (r2, Some 3%nat)) (seq 0 n) ++ cselStore n r1 r2 r1 0%nat ++ popRegs sv ++ [Ret].
Lemma bin_code k n : rawBin k n = codeT k n (addregs n).
Proof. unfold rawBin. generalize (addregs n). intros [[[w r1] r2] sv]. destruct k; reflexivity. Qed.
Definition chkT (n : nat) (t : list reg * list reg * list reg * list reg) : bool :=
  let '(w, r1, r2, sv) := t in
  svok sv && forallb (fun k => safes n r1 (r1, Some 1%nat) (bopr k n w) && okl sv (touched n r1 (r1, Some 1%nat) (bopr k n w))) [BAnd; BOr; BXor; BNot] &&
  safes n r2 (r1, None) (r2, Some 3%nat) && okl sv (touched n r2 (r1, None) (r2, Some 3%nat)) && keepa n r2 (r1, None) (r2, Some 3%nat) &&
  chkCsel n r1 r2 0%nat && okl sv r1.

Lemma sel_mod (c : bool) v r q P K : 0 <= v < K -> 0 <= r < P -> r + b2z c * P = v + (P - q) -> 0 <= v < P -> 0 <= q < P -> q < K <= 2 * q ->
  (if c then r else v) = v mod q.
Proof.
  intros Hv Hr E Hv' Hq Hk. destruct c; cbn [b2z] in E.
  - apply (Z.mod_unique_pos _ _ 1); lia.
  - symmetry. apply Z.mod_small. lia.
Qed.
Lemma chkBin_ok n : (1 <= n <= 12)%nat -> chkT n (addregs n) = true.
Proof. intros Hn. assert (H : forallb (fun n => chkT n (addregs n)) (seq 1 12) = true) by (vm_compute; reflexivity). rewrite forallb_forall in H. apply H, in_seq. lia. Qed.
Section Bin.
  Variables (lay : sym -> Z) (n : nat) (op : binop) (m : mach) (k : Z).
  Hypothesis Hn : (1 <= n <= 12)%nat.
  Hypothesis St : stk m.
  Let d := xr m 0. Let pq := lay Srawq. Let q := num (mem m) pq n. Let M := mem m (lay SlboMask).
  Hypothesis Rd : room m d n. Hypothesis Cd : clear_of m d n.
  Hypothesis Aq : area m pq n. Hypothesis Cq : clear_of m pq n.
  Hypothesis Am : area m (lay SlboMask) 1. Hypothesis Cm : clear_of m (lay SlboMask) 1.
  Hypothesis Aa : area m (xr m 1) n. Hypothesis Ca : clear_of m (xr m 1) n.
  Hypothesis Ab : op <> BNot -> area m (xr m 2) n /\ clear_of m (xr m 2) n.
  Hypothesis Hk : 0 <= k.
  Hypothesis HM : (M + 1) * B ^ Z.of_nat (n - 1) = 2 ^ k.
  Hypothesis Hq : q < 2 ^ k <= 2 * q.
  Let a := num (mem m) (xr m 1) n. Let b := num (mem m) (xr m 2) n.
  Let x (j : nat) := mem m (xr m 1 + off j). Let z (j : nat) := mem m (pq + off j).
  Let y (j : nat) := match op with BNot => 0 | _ => mem m (xr m 2 + off j) end.

  Lemma binT_ok t : chkT n t = true -> exists m', run lay None (codeT op n t) m = Some m' /\ kept m m' /\
    num (mem m') d n = (numop op n a b mod 2 ^ k) mod q /\ outside m m' d n.
  Proof.
    intros K. destruct t as [[[w r1] r2] sv]. cbn [chkT codeT] in *.
    do 6 (apply andb_prop in K as [K ?]). rename H into KO1, H0 into KC, H1 into KK, H2 into KO2, H3 into KS2, H4 into KF, K into KSv.
    rewrite forallb_forall in KF. specialize (KF op ltac:(destruct op; cbn; auto)). apply andb_prop in KF as [KS1 KT1].
    assert (n0 : (0 < n)%nat) by lia.
    destruct (frame_ok lay sv m St KSv) as (m1 & R1 & X1 & Q1 & M1 & Pop). rewrite R1.
    assert (Sx : source n (r1, Some 1%nat) x m1) by (apply (src_mem n r1 1%nat m m1 m1); auto).
    assert (Sy : source n (bopr op n w) y m1).
    { assert (G : op <> BNot -> source n (cyclicCopy w n, Some 2%nat) (fun j => mem m (xr m 2 + off j)) m1).
      { intros N. destruct (Ab N). apply (src_mem n (cyclicCopy w n) 2%nat m m1 m1); auto. }
      unfold y, bopr. destruct op; try (apply G; discriminate). apply src_regs; [intros; split; reflexivity || discriminate|].
      intros j Hj. replace (ix (repeat 31%nat n) j) with 31%nat; [reflexivity|]. unfold ix.
      destruct (nth_in_or_default j (repeat 31%nat n) 31%nat) as [I|I]; [symmetry; exact (repeat_spec _ _ _ I)|symmetry; exact I]. }
    destruct (bits_ok lay n op r1 (r1, Some 1%nat) (bopr op n w) x y m1 n0 KS1 Sx Sy) as (m2 & E2 & S2 & K2 & V2).
    rewrite (run_exec _ _ _ _ _ E2).
    destruct Sx as [Bx _]. destruct Sy as [By _].
    set (f := fun j => wordop op (x j) (y j)).
    assert (Bf : forall j, (j < n)%nat -> 0 <= f j < B) by (intros j Hj; apply op_range; auto).
    assert (Md2 : mid m m1 m2 sv).
    { destruct S2 as (s1 & s2 & s3). split; [congruence|]. split; [congruence|]. split; [congruence|]. intros t Ht Ns. rewrite K2; [apply X1|]. apply (okl_sav sv); auto. }
    assert (P2 : forall t, (t < 4)%nat -> xr m2 t = xr m t) by (intros t Ht; rewrite K2; [apply X1|apply (okl_par sv); auto]).
    assert (Lr : length r1 = n).
    { unfold chkCsel in KC. do 4 (apply andb_prop in KC as [KC ?]). apply Nat.eqb_eq, KC. }
    assert (Inr : forall j, (j < n)%nat -> In (ix r1 j) r1) by (intros; apply nth_In; lia).
    assert (Hi4 : forall j, (j < n)%nat -> (4 <= ix r1 j)%nat).
    { intros j Hj. destruct (Nat.lt_ge_cases (ix r1 j) 4); [|assumption]. exfalso. apply (okl_par sv r1 (ix r1 j) KO1); auto. }
    assert (H31 : forall j, (j < n)%nat -> ix r1 j <> 31%nat).
    { unfold chkCsel in KC. do 4 (apply andb_prop in KC as [KC ?]). intros j Hj Q. apply negb_true_iff, isin_false in H1. apply H1. rewrite <- Q. auto. }
    assert (Ds : forall j, (j < n - 1)%nat -> ix r1 j <> ix r1 (n - 1)).
    { unfold chkCsel in KC. do 4 (apply andb_prop in KC as [KC ?]). intros j Hj Q. rewrite forallb_forall in H. specialize (H (n - 1)%nat ltac:(apply in_seq; lia)).
      rewrite forallb_forall in H. specialize (H j ltac:(apply in_seq; lia)). rewrite Q, Nat.eqb_refl in H. discriminate. }
    (* the mask *)
    set (l := ix r1 (n - 1)) in *.
    set (m4 := wr (wr (wr (wr m2 2 (lay SlboMask)) 2 M) l (Z.land (f (n - 1)%nat) M)) 3 pq).
    assert (l2 : l <> 2%nat /\ l <> 3%nat /\ l <> 31%nat) by (pose proof (Hi4 (n - 1)%nat ltac:(lia)); fold l in H; repeat split; [lia|lia|apply H31; lia]).
    destruct l2 as (l2 & l3 & l31).
    assert (E4 : exec lay (lboMask l 2%nat ++ [Adr 3 Srawq]) m2 = Some m4).
    { unfold lboMask. cbn [app]. rewrite (exec_cons lay (Adr 2 SlboMask) _ m2 (wr m2 2 (lay SlboMask)) eq_refl). change (Ldr 2 2 0) with (Ldr 2 2 (off 0)).
      assert (Et : step lay (Ldr 2 2 (off 0)) (wr m2 2 (lay SlboMask)) = Some (wr (wr m2 2 (lay SlboMask)) 2 M)).
      { rewrite (ldr_x lay 2%nat 2%nat (wr m2 2 (lay SlboMask)) (lay SlboMask) 1 0); [| apply xr_eq; lia | | lia].
        - do 2 f_equal. change (mem (wr m2 2 (lay SlboMask))) with (mem m2). destruct S2 as (e & _). rewrite e.
          rewrite M1 by (apply (out_stack m _ 1); auto). unfold M. f_equal. unfold off. lia.
        - unfold room. change (mapd (wr m2 2 (lay SlboMask))) with (mapd m2). destruct Md2 as (_ & e & _). rewrite e. apply area_room, Am. }
      rewrite (exec_cons _ _ _ _ _ Et).
      assert (Eu : step lay (And l l 2) (wr (wr m2 2 (lay SlboMask)) 2 M) = Some (wr (wr (wr m2 2 (lay SlboMask)) 2 M) l (Z.land (f (n - 1)%nat) M))).
      { cbn [step]. rewrite (xr_eq _ 2%nat) by lia. rewrite (xr_ne (wr m2 2 (lay SlboMask)) 2%nat M l l2), (xr_ne m2 2%nat (lay SlboMask) l l2). unfold l at 2. rewrite V2 by lia. reflexivity. }
      rewrite (exec_cons _ _ _ _ _ Eu). reflexivity. }
    rewrite app_assoc, (run_exec _ _ _ _ _ E4).
    assert (Md4 : mid m m1 m4 sv).
    { destruct Md2 as (e1 & e2 & e3 & e4). split; [exact e1|]. split; [exact e2|]. split; [exact e3|]. intros t Ht Ns.
      unfold m4. rewrite (xr_ne _ 3%nat), (xr_ne _ l), !xr_ne by (try lia; intros ->; apply (okl_sav sv r1 l KO1 Ht Ns), Inr; lia). auto. }
    assert (P4 : xr m4 0 = d /\ xr m4 3 = pq).
    { unfold m4. split; [|apply xr_eq; lia]. rewrite (xr_ne _ 3%nat), (xr_ne _ l), !xr_ne by (try lia; pose proof (Hi4 (n - 1)%nat ltac:(lia)); fold l in H; lia). apply P2. lia. }
    set (v := topm n M f).
    assert (Bm : 0 <= M < B) by (destruct Am as (_ & _ & _ & H); specialize (H 0%nat ltac:(lia)); replace (lay SlboMask + off 0) with (lay SlboMask) in H by (unfold off; lia); unfold M; apply H).
    assert (Bv : forall j, (j < n)%nat -> 0 <= v j < B).
    { intros j Hj. unfold v, topm. destruct (Nat.eqb j (n - 1)); [apply (op_range BAnd); auto|auto]. }
    assert (Sv : source n (r1, None) v m4).
    { apply src_regs; [exact Bv|]. intros j Hj. unfold m4, v, topm. rewrite (xr_ne _ 3%nat) by (pose proof (Hi4 j Hj); lia).
      destruct (Nat.eqb_spec j (n - 1)) as [->|N]; [apply xr_eq; exact l31|]. rewrite (xr_ne _ l) by (apply Ds; lia).
      rewrite !xr_ne by (pose proof (Hi4 j Hj); lia). apply V2, Hj. }
    assert (Sq : source n (r2, Some 3%nat) z m4) by (destruct Md4 as (_ & e2 & e3 & _); apply (src_mem n r2 3%nat m m1 m4); auto; apply P4).
    destruct (mid_chain lay n false r2 (r1, None) (r2, Some 3%nat) v z sv m m1 m4 n0 KS2 KO2 Sv Sq Md4) as (m5 & E5 & Md5 & P5 & T5 & B5 & C5 & V5).
    rewrite (run_exec _ _ _ _ _ E5). specialize (V5 KK). cbn [fst] in V5.
    destruct Md5 as (d1 & d2 & d3 & d4).
    destruct (csel_ok lay n r1 r2 0%nat m5 d KC n0) as (m6 & E6 & s6 & q6 & K6 & W6).
    { rewrite P5 by lia. apply P4. }
    { unfold room. rewrite d2. exact Rd. }
    rewrite (run_exec _ _ _ _ _ E6).
    destruct (Pop m6) as (m7 & E7 & K7 & M7 & _).
    { congruence. } { congruence. }
    { intros c Hc. destruct W6 as [_ W6]. rewrite W6, d3; [reflexivity|]. intros j Hj ->. exact (out_stack _ _ _ _ Cd Hj Hc). }
    { intros r Hr Ns. rewrite K6; [auto|]. apply (okl_sav sv); auto. }
    exists m7. split; [exact E7|]. split; [exact K7|]. split.
    2:{ intros c Hc Hs. rewrite M7. destruct W6 as [_ W6]. rewrite W6, d3 by auto. apply M1. exact Hs. }
    rewrite M7, (W_num m5 m6 d _ n W6).
    set (rr := fun j => xr m5 (ix r2 j)) in *.
    assert (Ev : sm (fun j => if fC m5 then xr m5 (ix r2 j) else xr m5 (ix r1 j)) n = if fC m5 then sm rr n else sm v n).
    { destruct (fC m5); apply sm_ext; intros j Hj; [reflexivity|]. apply V5, Hj. }
    rewrite Ev. unfold chain in C5.
    assert (Vv : sm v n = numop op n a b mod 2 ^ k).
    { unfold v. rewrite (mask_num n M k f n0 (proj1 Bm) Hk HM Bf). f_equal. unfold f. rewrite sm_op by auto.
      unfold a, b. rewrite !sm_num. fold x. unfold y. destruct op; reflexivity. }
    assert (Vq : sm z n = q) by (unfold q; rewrite sm_num; reflexivity).
    rewrite <- Vv. rewrite Vq in C5.
    assert (V2k : 0 <= sm v n < 2 ^ k) by (rewrite Vv; apply Z.mod_pos_bound, Z.pow_pos_nonneg; lia).
    pose proof (sm_bound rr n B5) as G2. pose proof (sm_bound v n Bv) as G1. pose proof (area_num _ _ _ Aq) as Nq. fold q in Nq.
    exact (sel_mod (fC m5) (sm v n) (sm rr n) q (B ^ Z.of_nat n) (2 ^ k) V2k G2 C5 G1 Nq Hq).
  Qed.
  Lemma bin_ok : exists m', run lay None (rawBin op n) m = Some m' /\ kept m m' /\
    num (mem m') d n = (numop op n a b mod 2 ^ k) mod q /\ outside m m' d n.
  Proof. rewrite bin_code. apply binT_ok. exact (chkBin_ok n Hn). Qed.
End Bin.
