(** The generated AArch64 swap and comparison, for every width. *)
From Coq Require Import ZArith List Bool Lia.
From Verif Require Import Limbs Arm ArmFacts ArmRaw.
Import ListNotations.
Open Scope Z_scope.

(** sums of words given by a function, and the invariant of a carry chain *)
Fixpoint sm (f : nat -> Z) (n : nat) : Z :=
  match n with O => 0 | S n => sm f n + f n * B ^ Z.of_nat n end.
Lemma sm_num f p n : num f p n = sm (fun j => f (p + off j)) n.
Proof. induction n; cbn [num sm]; congruence. Qed.
Lemma sm_ext f g n : (forall j, (j < n)%nat -> f j = g j) -> sm f n = sm g n.
Proof.
  induction n; intros H; cbn [sm]; [reflexivity|]. rewrite (H n) by lia. rewrite IHn; [reflexivity|]. intros; apply H; lia.
Qed.
Lemma sm_bound f n : (forall j, (j < n)%nat -> 0 <= f j < B) -> 0 <= sm f n < B ^ Z.of_nat n.
Proof.
  induction n; intros H; cbn [sm]. { change (B ^ Z.of_nat 0) with 1. lia. }
  assert (0 <= sm f n < B ^ Z.of_nat n) by (apply IHn; intros; apply H; lia).
  specialize (H n ltac:(lia)). rewrite BS. pose proof (Bp n). nia.
Qed.
Definition chain (add : bool) (x y r : nat -> Z) (c : Z) (i : nat) : Prop :=
  sm r i + c * B ^ Z.of_nat i = sm x i + (if add then sm y i else B ^ Z.of_nat i - sm y i).
Lemma cin_S add m i : cin add m (S i) = b2z (fC m). Proof. reflexivity. Qed.
Lemma chain_0 add x y r m : chain add x y r (cin add m 0) 0.
Proof. unfold chain, cin. cbn [sm Nat.eqb]. change (B ^ Z.of_nat 0) with 1. destruct add; lia. Qed.
Lemma cin_01 add m i : 0 <= cin add m i <= 1.
Proof. unfold cin. destruct (Nat.eqb i 0); [destruct add; lia|apply b2z_01]. Qed.
Lemma chain_S add x y r c i (s := x i + opb add (y i) + c) :
  0 <= x i < B -> 0 <= y i < B -> 0 <= c <= 1 -> r i = s mod B ->
  chain add x y r c i -> chain add x y r (b2z (B <=? s)) (S i).
Proof.
  intros Hx Hy Hc Hr H. unfold chain in *. cbn [sm]. rewrite BS.
  assert (E : s = r i + b2z (B <=? s) * B).
  { rewrite Hr. apply carry_eq. subst s. unfold opb, inv64. destruct add; lia. }
  set (k := b2z (B <=? s)) in *. clearbody k. subst s. unfold opb, inv64 in E.
  set (P := B ^ Z.of_nat i) in *. clearbody P.
  destruct add; nia.
Qed.

Lemma swap_regs n i : (i < n)%nat ->
  ix (cyclicCopy (seq 2 8) n) i = (2 + i mod 8)%nat /\ ix (cyclicCopy (seq 10 8) n) i = (10 + i mod 8)%nat.
Proof. intros H. split; apply cyc_seq; lia. Qed.

Section Swap.
  Variables (lay : sym -> Z) (n : nat) (m : mach).
  Let p0 := xr m 0. Let p1 := xr m 1.
  Hypothesis R0 : room m p0 n.
  Hypothesis R1 : room m p1 n.
  Hypothesis Ap : apart p0 p1 n.
  Let X (m' : mach) (k : nat) : Prop :=
    (forall j, (j < k)%nat -> mem m' (p0 + off j) = mem m (p1 + off j) /\ mem m' (p1 + off j) = mem m (p0 + off j)) /\
    (forall a, (forall j, (j < k)%nat -> a <> p0 + off j /\ a <> p1 + off j) -> mem m' a = mem m a).
  Lemma swap_ok : exists m', run lay None (rawSwap n) m = Some m' /\ kept m m' /\ X m' n.
  Proof.
    change (rawSwap n) with (flat_map (fun i => ldw (cyclicCopy (seq 2 8) n) i 0 ++ ldw (cyclicCopy (seq 10 8) n) i 1 ++
       stw (cyclicCopy (seq 2 8) n) i 1 ++ stw (cyclicCopy (seq 10 8) n) i 0) (seq 0 n) ++ [Ret]).
    set (v := cyclicCopy (seq 2 8) n). set (w := cyclicCopy (seq 10 8) n).
    assert (Lv : length v = n) by apply len_cyc. assert (Lw : length w = n) by apply len_cyc.
    assert (Iv : forall i, (i < n)%nat -> ix v i = (2 + i mod 8)%nat) by (intros; apply swap_regs; auto).
    assert (Iw : forall i, (i < n)%nat -> ix w i = (10 + i mod 8)%nat) by (intros; apply swap_regs; auto).
    destruct (exec_loop lay (fun i => ldw v i 0 ++ ldw w i 1 ++ stw v i 1 ++ stw w i 0)
      (fun i m' => kept m m' /\ xr m' 0 = p0 /\ xr m' 1 = p1 /\ X m' (done n i)) n m)
      as (m' & E & I1 & _ & _ & I2).
    - intros i m1 Hi (K & X0 & X1 & K2).
      destruct (Nat.even i) eqn:Ev.
      2:{ exists m1. rewrite !(exec_app _ _ _ m1 m1) by (apply ldw_odd || apply stw_odd; auto).
          split; [now apply stw_odd|]. split; [exact K|]. split; [auto|]. split; [auto|]. now rewrite done_odd. }
      destruct K as (k1 & k2 & k3).
      destruct (even_pair i 8 Ev eq_refl ltac:(lia)) as [V1 V2].
      assert (Q0 : room m1 p0 n) by (unfold room; rewrite k2; exact R0).
      assert (Q1 : room m1 p1 n) by (unfold room; rewrite k2; exact R1).
      destruct (ldw_ok lay v i 0%nat m1 p0) as (m2 & E2 & S2 & _ & L2 & F2).
      { exact X0. } { now rewrite Lv. } { lia. } { intros Hi'. rewrite !Iv by lia. lia. } { rewrite Iv by lia. lia. }
      rewrite Lv in *. destruct (L2 Ev) as [L2a L2b]. clear L2.
      assert (Fr2 : forall r, (r < 2 \/ 10 <= r)%nat -> xr m2 r = xr m1 r).
      { intros r Hr. apply F2. intros _. rewrite Iv by lia. split; [lia|]. intros. rewrite Iv by lia. lia. }
      destruct (ldw_ok lay w i 1%nat m2 p1) as (m3 & E3 & S3 & _ & L3 & F3).
      { rewrite Fr2 by lia. exact X1. } { rewrite Lw. apply (same_room m1); auto. } { lia. }
      { intros Hi'. rewrite !Iw by lia. lia. } { rewrite Iw by lia. lia. }
      rewrite Lw in *. destruct (L3 Ev) as [L3a L3b]. clear L3.
      assert (Fr3 : forall r, (r < 10 \/ 18 <= r)%nat -> xr m3 r = xr m2 r).
      { intros r Hr. apply F3. intros _. rewrite Iw by lia. split; [lia|]. intros. rewrite Iw by lia. lia. }
      destruct S2 as (S2a & S2b & S2c). destruct S3 as (S3a & S3b & S3c).
      destruct (stw_ok lay v i 1%nat m3 p1) as (m4 & E4 & R4 & _ & P4 & Q4 & M4 & N4).
      { rewrite Fr3, Fr2 by lia. exact X1. } { rewrite Lv. unfold room. rewrite S3b, S2b. exact Q1. } { lia. }
      rewrite Lv in *. destruct (M4 Ev) as [M4a M4b]. clear M4.
      destruct (stw_ok lay w i 0%nat m4 p0) as (m5 & E5 & R5 & _ & P5 & Q5 & M5 & N5).
      { rewrite R4, Fr3, Fr2 by lia. exact X0. } { rewrite Lw. unfold room. rewrite Q4, S3b, S2b. exact Q0. } { lia. }
      rewrite Lw in *. destruct (M5 Ev) as [M5a M5b]. clear M5.
      exists m5. rewrite (exec_app _ _ _ _ _ E2), (exec_app _ _ _ _ _ E3), (exec_app _ _ _ _ _ E4).
      split; [exact E5|].
      split; [|split; [|split]].
      { split; [congruence|]. split; [congruence|]. intros r Hr. rewrite R5, R4, Fr3, Fr2 by lia. auto. }
      { rewrite R5, R4, Fr3, Fr2 by lia. auto. }
      { rewrite R5, R4, Fr3, Fr2 by lia. auto. }
      rewrite done_even by auto. unfold done in K2. rewrite Ev in K2. destruct K2 as [K2 K3].
      assert (Rd : forall j, (i <= j < n)%nat -> mem m1 (p1 + off j) = mem m (p1 + off j) /\ mem m1 (p0 + off j) = mem m (p0 + off j)).
      { intros j Hj. split; apply K3; intros j' Hj'; (split; [|]);
          try (intros Q; apply Z.add_reg_l, off_inj in Q; lia); unfold apart, off in *; lia. }
      (* the two words just swapped *)
      assert (T : forall j, (j < n)%nat -> j = i \/ j = (i + 1)%nat ->
                  mem m5 (p0 + off j) = mem m (p1 + off j) /\ mem m5 (p1 + off j) = mem m (p0 + off j)).
      { assert (T0 : forall j, (j < n)%nat -> j = i \/ j = (i + 1)%nat -> mem m4 (p1 + off j) = mem m (p0 + off j)).
        { intros j Hj [->| ->].
          - rewrite M4a. rewrite Fr3 by (rewrite Iv by lia; lia). rewrite L2a. apply Rd. lia.
          - rewrite M4b by lia. rewrite Fr3 by (rewrite Iv by lia; lia). rewrite L2b by lia. apply Rd. lia. }
        assert (T1 : forall j, (j < n)%nat -> j = i \/ j = (i + 1)%nat -> mem m5 (p0 + off j) = mem m (p1 + off j)).
        { intros j Hj [->| ->].
          - rewrite M5a, R4, L3a, S2a. apply Rd. lia.
          - rewrite M5b, R4, L3b, S2a by lia. apply Rd. lia. }
        intros j Hj Hij. split; [auto|].
        destruct (Z.eq_dec p0 p1) as [Ep|Np]. { rewrite <- Ep at 1. rewrite T1 by auto. now rewrite Ep. }
        rewrite N5. { auto. } intros _. unfold apart, off in *. split; lia. }
      split.
      + intros j Hj. destruct (Nat.eq_dec j i) as [->|Nj]. { apply T; auto. }
        destruct (Nat.eq_dec j (i + 1)) as [->|Nj']. { apply T; [lia|auto]. }
        assert (Hji : (j < i)%nat) by lia. destruct (K2 j Hji) as [Ka Kb].
        rewrite !N5, !N4, S3a, S2a by (intros _; unfold apart, off in *; split; lia). auto.
      + intros a Ha. rewrite N5, N4, S3a, S2a.
        * apply K3. intros j Hj. apply Ha. lia.
        * intros _. split; [|intros]; apply Ha; lia.
        * intros _. split; [|intros]; apply Ha; lia.
    - split; [repeat split; auto|]. split; [auto|]. split; [auto|]. change (done n 0) with 0%nat. split; [lia|auto].
    - exists m'. rewrite (run_exec _ _ _ _ _ E). split; [reflexivity|]. split; [exact I1|]. now rewrite done_n in I2.
  Qed.
End Swap.

(** *** rawCmp *)
(** how many of the first [k] words of [r] are not 0 *)
Fixpoint nz (r : nat -> Z) (k : nat) : Z := match k with O => 0 | S k => nz r k + b2z (negb (r k =? 0)) end.
Lemma nz_bound r k : 0 <= nz r k <= Z.of_nat k.
Proof. induction k; cbn [nz]; [lia|]. pose proof (b2z_01 (negb (r k =? 0))). lia. Qed.
Lemma nz_0 r k : (forall j, (j < k)%nat -> 0 <= r j) -> nz r k = 0 <-> sm r k = 0.
Proof.
  induction k as [|k IH]; intros H; cbn [nz sm]; [tauto|].
  assert (I : nz r k = 0 <-> sm r k = 0) by (apply IH; intros; apply H; lia).
  pose proof (nz_bound r k). pose proof (Bp k). specialize (H k ltac:(lia)) as Hk.
  assert (0 <= sm r k).
  { clear -H. induction k; cbn [sm]; [lia|]. pose proof (Bp k). specialize (H k ltac:(lia)) as Hk.
    assert (0 <= sm r k) by (apply IHk; intros; apply H; lia). nia. }
  destruct (Z.eqb_spec (r k) 0) as [E|E]; cbn [negb b2z].
  - rewrite E, Z.mul_0_l, !Z.add_0_r. exact I.
  - split; intros Q; [lia|nia].
Qed.
Section CmpS.
  Variables (lay : sym -> Z) (n : nat) (m : mach).
  Let p0 := xr m 0. Let p1 := xr m 1.
  Hypothesis Hn : (0 < n)%nat.
  Hypothesis Hn' : Z.of_nat n < B.
  Hypothesis R0 : area m p0 n.
  Hypothesis R1 : area m p1 n.
  Let x j := mem m (p0 + off j). Let y j := mem m (p1 + off j).
  Lemma cmp_ok : exists m' k, run lay None (rawCmp n) m = Some m' /\ kept m m' /\ mem m' = mem m /\
    0 <= k <= Z.of_nat n /\ (k = 0 <-> num (mem m) p0 n = num (mem m) p1 n) /\
    xr m' 0 = (if num (mem m) p0 n <? num (mem m) p1 n then (- k) mod B else k).
  Proof.
    change (rawCmp n) with (flat_map (fun i => ldw (cyclicCopy (seq 3 4) n) i 0 ++ ldw (cyclicCopy (seq 7 4) n) i 1 ++
       [subw (cyclicCopy (seq 3 4) n) (cyclicCopy (seq 3 4) n) (cyclicCopy (seq 7 4) n) i; if Nat.eqb i 0 then Cset 2 NE else Cinc 2 2 NE]) (seq 0 n) ++ [Cneg 0 2 LO; Ret]).
    set (v := cyclicCopy (seq 3 4) n). set (w := cyclicCopy (seq 7 4) n).
    assert (Lv : length v = n) by apply len_cyc. assert (Lw : length w = n) by apply len_cyc.
    assert (Iv : forall i, (i < n)%nat -> ix v i = (3 + i mod 4)%nat) by (intros; apply cyc_seq; lia).
    assert (Iw : forall i, (i < n)%nat -> ix w i = (7 + i mod 4)%nat) by (intros; apply cyc_seq; lia).
    destruct (exec_loop lay (fun i => ldw v i 0 ++ ldw w i 1 ++ [subw v v w i; if Nat.eqb i 0 then Cset 2 NE else Cinc 2 2 NE])
      (fun i m' => same m m' /\ (forall r, (r < 2 \/ 18 <= r)%nat -> xr m' r = xr m r) /\
         ((i < n)%nat -> Nat.even i = false -> xr m' (ix v i) = x i /\ xr m' (ix w i) = y i) /\
         exists r, (forall j, (j < i)%nat -> 0 <= r j < B) /\ chain false x y r (cin false m' i) i /\ ((0 < i)%nat -> xr m' 2 = nz r i)) n m)
      as (m' & E & I1 & I2 & _ & r & I3 & I4 & I5).
    - intros i m1 Hi (S1 & F1 & A1 & r & G1 & G2 & G3).
      assert (M : exists m2, exec lay (ldw v i 0 ++ ldw w i 1) m1 = Some m2 /\ same m1 m2 /\ samef m1 m2 /\
                (forall r, (r < 3 \/ 18 <= r)%nat -> xr m2 r = xr m1 r) /\
                xr m2 (ix v i) = x i /\ xr m2 (ix w i) = y i /\
                (Nat.even i = true -> (i + 1 < n)%nat -> xr m2 (ix v (i + 1)) = x (i + 1)%nat /\ xr m2 (ix w (i + 1)) = y (i + 1)%nat)).
      { destruct (Nat.even i) eqn:Ev.
        2:{ exists m1. rewrite (exec_app _ _ _ m1 m1) by (apply ldw_odd; auto). split; [now apply ldw_odd|].
            split; [apply same_refl|]. split; [repeat split|]. split; [auto|]. destruct (A1 Hi eq_refl). repeat split; auto; discriminate. }
        destruct (even_pair i 4 Ev eq_refl ltac:(lia)) as [V1 V2].
        destruct (ldw_ok lay v i 0%nat m1 p0) as (m2 & E2 & S2 & T2 & L2 & F2).
        { apply F1. lia. } { rewrite Lv. apply (same_room m); auto. apply area_room, R0. } { lia. } { intros Hi'. rewrite !Iv by lia. lia. } { rewrite Iv by lia. lia. }
        rewrite Lv in *. destruct (L2 Ev) as [L2a L2b]. clear L2.
        assert (Fr2 : forall r, (r < 3 \/ 7 <= r)%nat -> xr m2 r = xr m1 r).
        { intros t Ht. apply F2. intros _. rewrite Iv by lia. split; [lia|]. intros. rewrite Iv by lia. lia. }
        destruct (ldw_ok lay w i 1%nat m2 p1) as (m3 & E3 & S3 & T3 & L3 & F3).
        { rewrite Fr2, F1 by lia. reflexivity. } { rewrite Lw. apply (same_room m1); auto. apply (same_room m); auto. apply area_room, R1. } { lia. }
        { intros Hi'. rewrite !Iw by lia. lia. } { rewrite Iw by lia. lia. }
        rewrite Lw in *. destruct (L3 Ev) as [L3a L3b]. clear L3.
        assert (Fr3 : forall r, (r < 7 \/ 11 <= r)%nat -> xr m3 r = xr m2 r).
        { intros t Ht. apply F3. intros _. rewrite Iw by lia. split; [lia|]. intros. rewrite Iw by lia. lia. }
        pose proof S1 as (s1 & _). pose proof S2 as (s2 & _).
        exists m3. rewrite (exec_app _ _ _ _ _ E2). split; [exact E3|]. split; [apply (same_trans _ m2); auto|].
        split; [unfold samef in *; intuition congruence|].
        split; [intros; rewrite Fr3, Fr2 by lia; reflexivity|].
        split; [rewrite Fr3 by (rewrite Iv by lia; lia); rewrite L2a, s1; reflexivity|].
        split; [rewrite L3a, s2, s1; reflexivity|].
        intros _ Hi'. split; [rewrite Fr3 by (rewrite Iv by lia; lia); rewrite L2b, s1 by lia; reflexivity|].
        rewrite L3b, s2, s1 by lia. reflexivity. }
      destruct M as (m2 & E2 & S2 & T2 & F2 & X2 & Y2 & A2).
      destruct (addsub_ok lay false (ix v i) (ix v i) (ix w i) i m2) as (m3 & E3 & S3 & X3 & C3 & Z3 & F3).
      { rewrite Iv by lia. pose proof (cyc_bound i 4). lia. }
      rewrite X2, Y2 in *.
      assert (Ci : cin false m2 i = cin false m1 i).
      { unfold cin. destruct T2 as (_ & _ & T2 & _). now rewrite T2. }
      rewrite Ci in *. set (s := x i + opb false (y i) + cin false m1 i) in *.
      assert (Bx : 0 <= x i < B) by (destruct R0 as (_ & _ & _ & R); apply R; auto).
      assert (By : 0 <= y i < B) by (destruct R1 as (_ & _ & _ & R); apply R; auto).
      set (r' := fun j => if Nat.eqb j i then s mod B else r j).
      assert (Sm : sm r' i = sm r i /\ nz r' i = nz r i).
      { assert (G : forall k, (k <= i)%nat -> sm r' k = sm r k /\ nz r' k = nz r k).
        { induction k; intros Hk; cbn [sm nz]; [auto|]. destruct IHk as [-> ->]; [lia|].
          unfold r'. assert (N : Nat.eqb k i = false) by (apply Nat.eqb_neq; lia). rewrite N. auto. }
        apply G. lia. }
      assert (Hr' : r' i = s mod B) by (unfold r'; now rewrite Nat.eqb_refl).
      assert (Ch : chain false x y r' (b2z (B <=? s)) (S i)).
      { apply (chain_S false x y r' (cin false m1 i) i); auto. apply cin_01.
        unfold chain in *. destruct Sm as [-> _]. exact G2. }
      set (m4 := wr m3 2 (nz r' (S i))).
      assert (E4 : exec lay [if Nat.eqb i 0 then Cset 2 NE else Cinc 2 2 NE] m3 = Some m4).
      { unfold m4. cbn [nz]. destruct Sm as [_ ->]. rewrite Hr'.
        destruct (Nat.eqb_spec i 0) as [->|N]; cbn [exec step holds]; rewrite Z3.
        - cbn [nz]. reflexivity.
        - rewrite F3 by (rewrite Iv by lia; lia). rewrite F2 by lia. rewrite G3 by lia. do 2 f_equal.
          pose proof (nz_bound r i). destruct (s mod B =? 0); cbn [negb b2z]; [lia|]. apply Z.mod_small. lia. }
      exists m4. split.
      { rewrite app_assoc. rewrite (exec_app _ _ _ _ _ E2). 
        change [subw v v w i; if Nat.eqb i 0 then Cset 2 NE else Cinc 2 2 NE] with ([addsub false (ix v i) (ix v i) (ix w i) i] ++ [if Nat.eqb i 0 then Cset 2 NE else Cinc 2 2 NE]).
        rewrite (exec_app _ _ _ _ _ E3). exact E4. }
      split. { apply (same_trans _ m1); auto. apply (same_trans _ m2); auto. }
      split. { intros t Ht. unfold m4. rewrite xr_ne by lia. pose proof (cyc_bound i 4). rewrite F3 by (rewrite Iv by lia; lia). rewrite F2 by lia. auto. }
      split.
      { intros Hi' Ev. rewrite ev_S in Ev. apply negb_false_iff in Ev. destruct (even_pair i 4 Ev eq_refl ltac:(lia)) as [V1 V2].
        replace (S i) with (i + 1)%nat in * by lia. destruct (A2 Ev Hi') as [A2a A2b].
        unfold m4. rewrite !xr_ne by (rewrite ?Iv, ?Iw by lia; lia).
        rewrite !F3 by (rewrite ?Iv, ?Iw by lia; lia). auto. }
      exists r'. split.
      { intros j Hj. unfold r'. destruct (Nat.eqb_spec j i); [apply Z.mod_pos_bound; reflexivity|apply G1; lia]. }
      split; [|intros _; unfold m4; apply xr_eq; lia].
      rewrite cin_S. unfold m4. cbn [fC wr]. rewrite C3. exact Ch.
    - split; [apply same_refl|]. split; [auto|]. split; [discriminate|].
      exists (fun _ => 0). split; [lia|]. split; [apply chain_0|lia].
    - specialize (I5 Hn). exists (wr m' 0 (if holds m' LO then (- xr m' 2) mod B else xr m' 2)), (nz r n).
      rewrite (run_exec _ _ _ _ _ E). split; [reflexivity|].
      destruct I1 as (s1 & s2 & s3).
      split. { split; [exact s3|]. split; [exact s2|]. intros t Ht. rewrite xr_ne by lia. apply I2. lia. }
      split; [exact s1|]. split; [apply nz_bound|].
      unfold chain in I4. replace (sm x n) with (num (mem m) p0 n) in I4 by apply sm_num.
      replace (sm y n) with (num (mem m) p1 n) in I4 by apply sm_num.
      pose proof (area_num _ _ _ R0) as N0. pose proof (area_num _ _ _ R1) as N1. pose proof (sm_bound r n I3) as Nr.
      rewrite xr_eq by lia. rewrite I5. cbn [holds].
      assert (Ec : cin false m' n = b2z (fC m')) by (unfold cin; destruct n; [lia|reflexivity]). rewrite Ec in I4.
      set (P := B ^ Z.of_nat n) in *. clearbody P.
      split.
      + rewrite nz_0 by (intros j Hj; apply I3 in Hj; lia). destruct (fC m'); cbn [b2z] in I4; split; intros; try lia.
      + destruct (Z.ltb_spec (num (mem m) p0 n) (num (mem m) p1 n)); destruct (fC m'); cbn [b2z negb] in *; try reflexivity; lia.
  Qed.
End CmpS.
