(** The generated AArch64 copies, comparison and plain subtraction, for every width. *)
From Coq Require Import ZArith List Bool Lia.
From Verif Require Import Limbs Arm ArmFacts.
Import ListNotations.
Open Scope Z_scope.

(** what a routine gives back as it found it *)
Definition kept (m m' : mach) : Prop :=
  sp m' = sp m /\ mapd m' = mapd m /\ (forall r, (18 <= r)%nat -> xr m' r = xr m r).
(** two areas of [n] words are the same or do not meet *)
Definition apart (p q : Z) (n : nat) : Prop := p = q \/ p + 8 * Z.of_nat n <= q \/ q + 8 * Z.of_nat n <= p.
Lemma apart_ne p q n i j : apart p q n -> (i < n)%nat -> (j < n)%nat -> i <> j -> p + off i <> q + off j.
Proof. unfold apart, off. lia. Qed.

(** [k] words of [f] written at [p], nothing else *)
Definition W (m0 m : mach) (p : Z) (f : nat -> Z) (k : nat) : Prop :=
  (forall j, (j < k)%nat -> mem m (p + off j) = f j) /\
  (forall a, (forall j, (j < k)%nat -> a <> p + off j) -> mem m a = mem m0 a).
Lemma W_0 m p f : W m m p f 0.
Proof. split; [lia|auto]. Qed.
Lemma W_same m0 m m' p f k : mem m' = mem m -> W m0 m p f k -> W m0 m' p f k.
Proof. unfold W. now intros ->. Qed.
Definition memsame (m m' : mach) : Prop := (forall r, xr m' r = xr m r) /\ samef m m' /\ sp m' = sp m /\ mapd m' = mapd m.
Lemma off_inj i j : off i = off j -> i = j.
Proof. unfold off. lia. Qed.
Lemma stw_W lay v i b m m0 p f : xr m b = p -> room m p (length v) -> (i < length v)%nat -> W m0 m p f i ->
  Nat.even i = true -> xr m (ix v i) = f i -> ((i + 1 < length v)%nat -> xr m (ix v (i + 1)) = f (i + 1)%nat) ->
  exists m', exec lay (stw v i b) m = Some m' /\ memsame m m' /\ W m0 m' p f (Nat.min (length v) (i + 2)).
Proof.
  intros Hp Hr Hi [W1 W2] Ev F1 F2.
  destruct (stw_ok lay v i b m p Hp Hr Hi) as (m' & E & R & S & P1 & P2 & M1 & M2).
  exists m'. split; [exact E|]. split; [repeat split; auto; apply S|].
  destruct (M1 Ev) as [M1a M1b]. split.
  - intros j Hj. destruct (Nat.eq_dec j i) as [->|N]. { congruence. }
    destruct (Nat.eq_dec j (i + 1)) as [->|N']. { rewrite M1b by lia. apply F2. lia. }
    rewrite M2. { apply W1. lia. }
    intros _. split; [|intros _]; intros Q; apply Z.add_reg_l, off_inj in Q; lia.
  - intros a Ha. rewrite M2. { apply W2. intros j Hj. apply Ha. lia. }
    intros _. split; [|intros Hi']; apply Ha; lia.
Qed.
Lemma stw_odd lay v i b m : Nat.even i = false -> exec lay (stw v i b) m = Some m.
Proof. intros H. unfold stw. now rewrite H. Qed.
Lemma ldw_odd lay v i b m : Nat.even i = false -> exec lay (ldw v i b) m = Some m.
Proof. intros H. unfold ldw. now rewrite H. Qed.

Definition done (n i : nat) : nat := if Nat.even i then i else Nat.min n (i + 1).
Lemma done_n n : done n n = n.
Proof. unfold done. destruct (Nat.even n); lia. Qed.
Lemma ev_S i : Nat.even (S i) = negb (Nat.even i).
Proof. rewrite Nat.even_succ, <- Nat.negb_even. reflexivity. Qed.
Lemma done_even n i : Nat.even i = true -> done n (S i) = Nat.min n (i + 2).
Proof. intros H. unfold done. rewrite ev_S, H. cbn [negb]. f_equal. lia. Qed.
Lemma done_odd n i : (i < n)%nat -> Nat.even i = false -> done n (S i) = done n i.
Proof. intros Hi H. unfold done. rewrite ev_S, H. cbn [negb]. lia. Qed.

Lemma memsame_room m m' p n : memsame m m' -> room m p n -> room m' p n.
Proof. intros (_ & _ & _ & E). unfold room. now rewrite E. Qed.

(** genStoreVar *)
Lemma stv_ok lay n v b m p f : length v = n -> xr m b = p -> room m p n ->
  (forall i, (i < n)%nat -> xr m (ix v i) = f i) ->
  exists m', exec lay (stv n v b) m = Some m' /\ memsame m m' /\ W m m' p f n.
Proof.
  intros L Hp Hr F.
  destruct (exec_loop lay (fun i => stw v i b) (fun i m' => memsame m m' /\ W m m' p f (done n i)) n m) as (m' & E & I1 & I2).
  - intros i m1 Hi [K K2]. pose proof K as (k1 & k2 & k3 & k4).
    destruct (Nat.even i) eqn:Ev.
    + destruct (stw_W lay v i b m1 m p f) as (m2 & E2 & (s1 & s2 & s3 & s4) & W2).
      { now rewrite k1. }
      { rewrite L. apply (memsame_room m); auto. }
      { lia. }
      { unfold done in K2. now rewrite Ev in K2. }
      { exact Ev. }
      { rewrite k1. apply F. lia. }
      { intros. rewrite k1. apply F. lia. }
      exists m2. split; [exact E2|]. split.
      * split; [intros r; now rewrite s1|]. split; [|split; congruence].
        unfold samef in *. intuition congruence.
      * rewrite done_even by auto. now rewrite <- L.
    + exists m1. split; [now apply stw_odd|]. split; [exact K|]. now rewrite done_odd.
  - split; [repeat split|]. apply W_0.
  - exists m'. split; [exact E|]. split; [exact I1|]. now rewrite done_n in I2.
Qed.

(** *** rawCopy *)
Lemma copy_regs n i : (i < n)%nat -> ix (cyclicCopy (fst (take 8 (pool 2))) n) i = (2 + i mod 8)%nat.
Proof. intros H. change (fst (take 8 (pool 2))) with (seq 2 8). apply cyc_seq; lia. Qed.
Lemma cyc_bound i k : (0 < k)%nat -> (i mod k < k)%nat.
Proof. intros. apply Nat.mod_upper_bound. lia. Qed.

Section Copy.
  Variables (lay : sym -> Z) (n : nat) (m : mach).
  Let p0 := xr m 0%nat. Let p1 := xr m 1%nat.
  Hypothesis Hn : (0 < n)%nat.
  Hypothesis R0 : room m p0 n.
  Hypothesis R1 : room m p1 n.
  Hypothesis Ap : apart p0 p1 n.
  Lemma copy_ok : exists m', run lay None (rawCopy n) m = Some m' /\ kept m m' /\
    W m m' p0 (fun i => mem m (p1 + off i)) n.
  Proof.
    unfold rawCopy. set (v := cyclicCopy _ n).
    assert (Lv : length v = n) by apply len_cyc.
    assert (Iv : forall i, (i < n)%nat -> ix v i = (2 + i mod 8)%nat) by apply copy_regs.
    destruct (exec_loop lay (fun i => ldw v i 1 ++ stw v i 0)
      (fun i m' => kept m m' /\ xr m' 0%nat = p0 /\ xr m' 1%nat = p1 /\ W m m' p0 (fun i => mem m (p1 + off i)) (done n i)) n m)
      as (m' & E & I1 & _ & _ & I2).
    - intros i m1 Hi (K & X0 & X1 & K2).
      destruct (Nat.even i) eqn:Ev.
      2:{ exists m1. rewrite (exec_app _ _ _ _ m1) by now apply ldw_odd. split; [now apply stw_odd|].
          split; [exact K|]. split; [auto|]. split; [auto|]. now rewrite done_odd. }
      destruct K as (k1 & k2 & k3).
      assert (Q1 : room m1 p1 n) by (unfold room; rewrite k2; exact R1).
      destruct (even_pair i 8 Ev eq_refl ltac:(lia)) as [V1 V2].
      destruct (ldw_ok lay v i 1%nat m1 p1) as (m2 & E2 & S2 & _ & L2 & F2); try rewrite Lv; auto.
      { intros Hi'. rewrite !Iv by lia. lia. }
      { rewrite Iv by lia. pose proof (cyc_bound i 8). lia. }
      rewrite Lv in *. destruct S2 as (S2a & S2b & S2c). specialize (L2 Ev). destruct L2 as [L2a L2b].
      assert (Fr : forall r, (r < 2 \/ 10 <= r)%nat -> xr m2 r = xr m1 r).
      { intros r Hr. apply F2. intros _. rewrite Iv by lia. split; [lia|]. intros. rewrite Iv by lia. lia. }
      unfold done in K2. rewrite Ev in K2.
      assert (Rd : forall j, (i <= j < n)%nat -> mem m1 (p1 + off j) = mem m (p1 + off j)).
      { intros j Hj. apply K2. intros j' Hj' Q. symmetry in Q. revert Q. apply (apart_ne p0 p1 n); auto; lia. }
      destruct (stw_W lay v i 0%nat m2 m p0 (fun i => mem m (p1 + off i))) as (m3 & E3 & (s1 & s2 & s3 & s4) & W3); try rewrite Lv; auto.
      { rewrite Fr by lia. auto. }
      { unfold room. rewrite S2b, k2. exact R0. }
      { apply (W_same m m1); auto. }
      { rewrite L2a. apply Rd. lia. }
      { intros Hi'. rewrite L2b by lia. apply Rd. lia. }
      exists m3. rewrite (exec_app _ _ _ _ _ E2). split; [exact E3|].
      rewrite Lv in W3. rewrite done_even by auto.
      split; [|split; [|split; [|exact W3]]]; try (rewrite s1, Fr by lia; auto).
      split; [congruence|]. split; [congruence|]. intros r Hr. rewrite s1, Fr by lia. auto.
    - split; [repeat split; auto|]. split; [auto|]. split; [auto|]. apply W_0.
    - exists m'. rewrite (run_exec _ _ _ _ _ E). split; [reflexivity|]. split; [exact I1|]. now rewrite done_n in I2.
  Qed.
End Copy.
