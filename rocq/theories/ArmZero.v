(** The generated AArch64 tests for zero and for equality. *)
From Coq Require Import ZArith List Bool Lia.
From Verif Require Import Limbs Arm ArmFacts ArmRaw ArmCmp.
Import ListNotations.
Open Scope Z_scope.

Lemma ldr_x lay r b m p n i : xr m b = p -> room m p n -> (i < n)%nat ->
  step lay (Ldr r b (off i)) m = Some (wr m r (mem m (p + off i))).
Proof.
  intros Hp R Hi. pose proof R as (R1 & R2 & _). cbn [step]. now rewrite (ea_at m b p i n), (acc_at m p n) by auto.
Qed.
Lemma ldp_x lay r1 r2 b m p n i : xr m b = p -> room m p n -> (i + 1 < n)%nat -> r1 <> r2 ->
  step lay (Ldp r1 r2 b (off i)) m = Some (wr (wr m r1 (mem m (p + off i))) r2 (mem m (p + off (i + 1)))).
Proof.
  intros Hp R Hi Hd. pose proof R as (R1 & R2 & _). cbn [step]. rewrite off_8.
  rewrite (ea_at m b p i n), (ea_at m b p (i + 1) n), !(acc_at m p n) by (auto; lia).
  apply Nat.eqb_neq in Hd. now rewrite Hd.
Qed.

Lemma orr_x lay d a b m : step lay (Orr d a b) m = Some (wr m d (Z.lor (xr m a) (xr m b))).
Proof. reflexivity. Qed.
Lemma eor_x lay d a b m : step lay (Eor d a b) m = Some (wr m d (Z.lxor (xr m a) (xr m b))).
Proof. reflexivity. Qed.

(** the union of the bits of [w] words from the [i]th on *)
Fixpoint ors (f : nat -> Z) (i w : nat) : Z := match w with O => 0 | S w => Z.lor (ors f i w) (f (i + w)%nat) end.
Lemma ors_0 f i w : ors f i w = 0 <-> (forall j, (j < w)%nat -> f (i + j)%nat = 0).
Proof.
  induction w as [|w IH]; cbn [ors]. { split; [lia|auto]. }
  rewrite Z.lor_eq_0_iff, IH. split.
  - intros [H1 H2] j Hj. destruct (Nat.eq_dec j w) as [->|N]; auto. apply H1. lia.
  - intros H. split; [intros j Hj; apply H; lia|apply H; lia].
Qed.
Lemma ors_app f i a b : ors f i (a + b) = Z.lor (ors f i a) (ors f (i + a) b).
Proof.
  induction b as [|b IH]. { now rewrite Nat.add_0_r, Z.lor_0_r. }
  rewrite Nat.add_succ_r. cbn [ors]. rewrite IH, Z.lor_assoc. do 2 f_equal. lia.
Qed.
Lemma sm_inj f g n : (forall j, (j < n)%nat -> 0 <= f j < B) -> (forall j, (j < n)%nat -> 0 <= g j < B) ->
  sm f n = sm g n <-> (forall j, (j < n)%nat -> f j = g j).
Proof.
  induction n as [|n IH]; intros Hf Hg; cbn [sm]. { split; [lia|auto]. }
  assert (IH' := IH ltac:(intros; apply Hf; lia) ltac:(intros; apply Hg; lia)).
  pose proof (sm_bound f n ltac:(intros; apply Hf; lia)) as F. pose proof (sm_bound g n ltac:(intros; apply Hg; lia)) as G.
  specialize (Hf n ltac:(lia)). specialize (Hg n ltac:(lia)).
  set (P := B ^ Z.of_nat n) in *. clearbody P.
  split.
  - intros H. assert (E : f n = g n) by nia. assert (E' : sm f n = sm g n) by nia.
    intros j Hj. destruct (Nat.eq_dec j n) as [->|N]; auto. apply IH'; [exact E'|lia].
  - intros H. rewrite (H n) by lia. f_equal. apply IH'. intros; apply H; lia.
Qed.

Lemma mem_wr m r v : mem (wr m r v) = mem m. Proof. reflexivity. Qed.
Lemma exec_cons lay i c m m1 : step lay i m = Some m1 -> exec lay (i :: c) m = exec lay c m1.
Proof. intros H. cbn [exec]. now rewrite H. Qed.
Ltac nq := first [discriminate | lia].
Ltac xs := repeat match goal with |- context [xr (wr ?m ?r ?v) ?s] =>
  first [constr_eq r s; rewrite (xr_eq m r v) by nq | rewrite (xr_ne m r v s) by nq] end.
Ltac eop := erewrite exec_cons by (rewrite ?eor_x, ?orr_x; xs; reflexivity).
Ltac eld P n := erewrite exec_cons by (first [rewrite (ldp_x _ _ _ _ _ P n) by (auto; try nq; xs; auto) | rewrite (ldr_x _ _ _ _ P n) by (auto; try nq; xs; auto)];
  rewrite ?mem_wr; reflexivity).

(** the last three instructions *)
Lemma zero_end lay a m v : xr m a = v -> 0 <= v < B ->
  exists m', run lay None [Cmp a 31; Cset 0 EQ; Ret] m = Some m' /\ same m m' /\
    (forall r, (0 < r)%nat -> xr m' r = xr m r) /\ xr m' 0 = b2z (v =? 0).
Proof.
  intros E H. cbn [run step]. eexists. split; [reflexivity|]. split; [repeat split|].
  split. { intros r Hr. rewrite xr_ne by lia. reflexivity. }
  rewrite xr_eq by lia. cbn [holds awc snd wfl fZ]. rewrite E, xr_31. do 2 f_equal. unfold inv64.
  replace (v + (B - 1 - 0) + 1) with (v + 1 * B) by lia. rewrite Z_mod_plus_full. apply Z.mod_small. exact H.
Qed.

(** *** rawIsZero *)
Lemma zw_ne c j k : (j < 16)%nat -> (k < 16)%nat -> j <> k -> zwork (c + j) <> zwork (c + k).
Proof.
  intros Hj Hk N. unfold zwork. intros E.
  pose proof (Nat.div_mod (c + j) 16 ltac:(lia)). pose proof (Nat.div_mod (c + k) 16 ltac:(lia)). lia.
Qed.
Lemma zw_b c : (1 <= zwork c <= 16)%nat.
Proof. unfold zwork. pose proof (cyc_bound c 16). lia. Qed.

  Lemma bits_or a b : 0 <= a < B -> 0 <= b < B -> 0 <= Z.lor a b < B.
  Proof.
    intros Ha Hb. split; [apply Z.lor_nonneg; lia|].
    destruct (Z.eq_dec (Z.lor a b) 0) as [->|N]; [reflexivity|].
    assert (0 <= Z.lor a b) by (apply Z.lor_nonneg; lia).
    change B with (2 ^ 64) in *. apply Z.log2_lt_pow2; [lia|]. rewrite Z.log2_lor by lia. apply Z.max_lub_lt.
    - destruct (Z.eq_dec a 0) as [->|]; [reflexivity|]. apply Z.log2_lt_pow2; lia.
    - destruct (Z.eq_dec b 0) as [->|]; [reflexivity|]. apply Z.log2_lt_pow2; lia.
  Qed.
  Lemma ors_b f k : (forall j, (j < k)%nat -> 0 <= f j < B) -> 0 <= ors f 0 k < B.
  Proof.
    induction k; intros H; cbn [ors]. { split; reflexivity || lia. }
    apply bits_or; [apply IHk; intros; apply H; lia|apply H; lia].
  Qed.

Section Zero.
  Variables (lay : sym -> Z) (n : nat) (m : mach).
  Let p := xr m 0.
  Hypothesis Hn : (0 < n)%nat.
  Hypothesis R : area m p n.
  Let x j := mem m (p + off j).

  Lemma zstep_ok w c i m1 : (1 <= w <= 4)%nat -> (i + w <= n)%nat -> same m m1 -> xr m1 0 = p ->
    exists cs c' m2, zstep w c i = (cs, zwork c', S c') /\ (c <= c' <= c + 6)%nat /\ exec lay cs m1 = Some m2 /\ same m1 m2 /\
      xr m2 (zwork c') = ors x i w /\
      (forall r, (forall j, (j < 7)%nat -> r <> zwork (c + j)) -> xr m2 r = xr m1 r).
  Proof.
    intros Hw Hi S1 X1.
    assert (Q : room m1 p n) by (apply (same_room m); auto; apply area_room, R).
    pose proof (zw_ne c) as NE. pose proof (fun k => zw_b (c + k)) as WB. pose proof S1 as (M1 & _).
    assert (WB0 := WB 0%nat). assert (WB1 := WB 1%nat). assert (WB2 := WB 2%nat). assert (WB3 := WB 3%nat).
    assert (WB4 := WB 4%nat). assert (WB5 := WB 5%nat). assert (WB6 := WB 6%nat).
    rewrite Nat.add_0_r in WB0.
    assert (N01 : zwork c <> zwork (c + 1)) by (rewrite <- (Nat.add_0_r c) at 1; apply NE; lia).
    assert (N34 : zwork (c + 3) <> zwork (c + 4)) by (apply NE; lia).
    assert (N23 : zwork (c + 2) <> zwork (c + 3)) by (apply NE; lia).
    assert (N24 : zwork (c + 2) <> zwork (c + 4)) by (apply NE; lia).
    assert (N25 : zwork (c + 2) <> zwork (c + 5)) by (apply NE; lia).
    assert (w = 1 \/ w = 2 \/ w = 3 \/ w = 4)%nat as [ -> | [ -> | [ -> | -> ]]] by lia.
    - exists [Ldr (zwork c) 0 (off i)], c. eexists. split; [reflexivity|]. split; [lia|]. cbn [exec].
      rewrite (ldr_x _ _ _ _ p n) by (auto; lia). split; [reflexivity|]. split; [repeat split|].
      split. { xs. cbn [ors]. rewrite Z.lor_0_l, Nat.add_0_r. unfold x. now rewrite M1. }
      intros r Hr. specialize (Hr 0%nat ltac:(lia)). rewrite Nat.add_0_r in Hr. now rewrite xr_ne.
    - exists [Ldp (zwork c) (zwork (c + 1)) 0 (off i); Orr (zwork (c + 2)) (zwork c) (zwork (c + 1))], (c + 2)%nat. eexists.
      split; [cbn [zstep]; do 2 f_equal; lia|]. split; [lia|]. cbn [exec].
      rewrite (ldp_x _ _ _ _ _ p n) by (auto; lia). rewrite orr_x. split; [reflexivity|]. split; [repeat split|].
      split. { xs. cbn [ors]. rewrite Z.lor_0_l, Nat.add_0_r. unfold x. now rewrite M1. }
      intros r Hr. assert (r <> zwork c) by (rewrite <- (Nat.add_0_r c); apply Hr; lia). rewrite !xr_ne; auto; apply Hr; lia.
    - exists [Ldp (zwork c) (zwork (c + 1)) 0 (off i); Orr (zwork (c + 2)) (zwork c) (zwork (c + 1));
             Ldr (zwork (c + 3)) 0 (off (i + 2)); Orr (zwork (c + 4)) (zwork (c + 2)) (zwork (c + 3))], (c + 4)%nat. eexists.
      split; [cbn [zstep app]; replace (S (c + 3)) with (c + 4)%nat by lia; reflexivity|]. split; [lia|]. cbn [exec].
      rewrite (ldp_x _ _ _ _ _ p n) by (auto; lia). rewrite orr_x.
      rewrite (ldr_x _ _ _ _ p n) by (auto; try lia; xs; auto). rewrite ?orr_x. split; [reflexivity|]. split; [repeat split|].
      split. { xs. cbn [ors]. rewrite Z.lor_0_l, Nat.add_0_r. unfold x. cbn [mem wr]. now rewrite M1. }
      intros r Hr. assert (r <> zwork c) by (rewrite <- (Nat.add_0_r c); apply Hr; lia). rewrite !xr_ne; auto; apply Hr; lia.
    - exists [Ldp (zwork c) (zwork (c + 1)) 0 (off i); Orr (zwork (c + 2)) (zwork c) (zwork (c + 1));
             Ldp (zwork (c + 3)) (zwork (c + 4)) 0 (off (i + 2)); Orr (zwork (c + 5)) (zwork (c + 3)) (zwork (c + 4));
             Orr (zwork (c + 6)) (zwork (c + 2)) (zwork (c + 5))], (c + 6)%nat. eexists.
      split; [cbn [zstep app]; replace (c + 3 + 1)%nat with (c + 4)%nat by lia; replace (c + 3 + 2)%nat with (c + 5)%nat by lia;
              replace (c + 3 + 3)%nat with (c + 6)%nat by lia; reflexivity|]. split; [lia|]. cbn [exec].
      rewrite (ldp_x _ _ _ _ _ p n) by (auto; lia). rewrite orr_x.
      rewrite (ldp_x _ _ _ _ _ p n) by (auto; try lia; xs; auto). rewrite ?orr_x. split; [reflexivity|]. split; [repeat split|].
      split. { xs. cbn [ors]. rewrite Z.lor_0_l, Nat.add_0_r. unfold x. cbn [mem wr]. rewrite M1. 
               replace (i + 2 + 1)%nat with (i + 3)%nat by lia. now rewrite !Z.lor_assoc. }
      intros r Hr. assert (r <> zwork c) by (rewrite <- (Nat.add_0_r c); apply Hr; lia). rewrite !xr_ne; auto; apply Hr; lia.
  Qed.

  (** after [k] words *)
  Definition ZI (k : nat) (s : list instr * option reg * nat) : Prop :=
    let '(code, a, c) := s in
    exists m1, exec lay code m = Some m1 /\ same m m1 /\ (forall r, (r = 0 \/ 18 <= r)%nat -> xr m1 r = xr m r) /\
      match a with
      | None => k = 0%nat
      | Some a => xr m1 a = ors x 0 k /\ a <> 31%nat /\ (forall j, (j < 7)%nat -> a <> zwork (c + j))
      end.
  Lemma zchunk_ok w i s : (1 <= w <= 4)%nat -> (i * 4 + w <= n)%nat -> ZI (i * 4) s -> ZI (i * 4 + w) (zchunk w i s) /\ snd (fst (zchunk w i s)) <> None.
  Proof.
    intros Hw Hi. destruct s as [[code a] c]. intros (m1 & E1 & S1 & F1 & A1).
    destruct (zstep_ok w c (i * 4) m1 Hw Hi S1 (F1 0%nat ltac:(lia))) as (cs & c' & m2 & Es & Hc & E2 & S2 & V2 & F2).
    unfold zchunk. rewrite Es. pose proof (zw_b c') as Wb.
    destruct a as [a|].
    - destruct A1 as (A1 & A2 & A3). split; [|discriminate].
      exists (wr m2 17 (ors x 0 (i * 4 + w))). rewrite (exec_app _ _ _ _ _ E1), (exec_app _ _ _ _ _ E2). cbn [exec step].
      rewrite V2, (F2 a A3), A1. rewrite (ors_app x 0 (i * 4) w), Nat.add_0_l. split; [reflexivity|].
      split. { apply (same_trans _ m1); auto. }
      split. { intros r Hr. rewrite xr_ne by lia. rewrite F2; auto. intros j Hj. pose proof (zw_b (c + j)). lia. }
      split; [apply xr_eq; lia|]. split; [lia|]. intros j Hj. pose proof (zw_b (S c' + j)). lia.
    - rewrite A1 in *. split; [|discriminate].
      exists m2. rewrite (exec_app _ _ _ _ _ E1). split; [exact E2|]. split; [apply (same_trans _ m1); auto|].
      split. { intros r Hr. rewrite F2; auto. intros j Hj. pose proof (zw_b (c + j)). lia. }
      split; [exact V2|]. split; [lia|]. intros j Hj. rewrite <- (Nat.add_0_r c') at 1. rewrite Nat.add_succ_comm. apply zw_ne; lia.
  Qed.
  Lemma zfold_ok : ZI n (zfold n) /\ snd (fst (zfold n)) <> None.
  Proof.
    pose proof (Nat.div_mod n 4 ltac:(lia)) as Dm. pose proof (cyc_bound n 4 ltac:(lia)) as Mb.
    assert (G : forall k t, (t + k <= n / 4)%nat -> forall s, ZI (t * 4) s -> (t = 0%nat \/ snd (fst s) <> None) ->
              let s' := fold_left (fun s i => zchunk 4 i s) (seq t k) s in
              ZI ((t + k) * 4) s' /\ ((t + k)%nat = 0%nat \/ snd (fst s') <> None)).
    { induction k as [|k IH]; intros t Ht s Hs Ha; cbn [seq fold_left].
      - rewrite Nat.add_0_r. auto.
      - destruct (zchunk_ok 4 t s) as [Z1 Z2]; [lia|lia|exact Hs|].
        rewrite <- Nat.add_succ_comm. apply IH; [lia| |auto].
        replace (S t * 4)%nat with (t * 4 + 4)%nat by lia. exact Z1. }
    specialize (G (n / 4)%nat 0%nat ltac:(lia) ([], None, 0%nat)).
    destruct G as [G1 G2]; auto.
    { exists m. split; [reflexivity|]. split; [apply same_refl|]. auto. }
    cbn [Nat.add] in G1, G2. unfold zfold. destruct (Nat.eqb_spec (n mod 4) 0) as [E|E].
    - replace (n / 4 * 4)%nat with n in G1 by lia. split; [exact G1|]. destruct G2 as [G2|G2]; [lia|exact G2].
    - destruct (zchunk_ok (n mod 4) (n / 4) _ ltac:(lia) ltac:(lia) G1) as [Z1 Z2].
      replace (n / 4 * 4 + n mod 4)%nat with n in Z1 by lia. auto.
  Qed.
  Lemma isZero_ok : exists m', run lay None (rawIsZero n) m = Some m' /\ kept m m' /\ mem m' = mem m /\
    xr m' 0 = b2z (num (mem m) p n =? 0).
  Proof.
    destruct zfold_ok as [Z1 Z2]. unfold rawIsZero. destruct (zfold n) as [[code a] c].
    destruct Z1 as (m1 & E1 & S1 & F1 & A1). destruct a as [a|]; [|elim Z2; reflexivity].
    destruct A1 as (A1 & A2 & _).
    assert (Bx : forall j, (j < n)%nat -> 0 <= x j < B) by (intros j Hj; destruct R as (_ & _ & _ & Q); apply Q; auto).
    destruct (zero_end lay a m1 _ A1) as (m2 & E2 & S2 & F2 & V2). { apply ors_b, Bx. }
    exists m2. rewrite (run_exec _ _ _ _ _ E1). split; [exact E2|].
    destruct S1 as (s1 & s2 & s3). destruct S2 as (t1 & t2 & t3).
    split. { split; [congruence|]. split; [congruence|]. intros r Hr. rewrite F2, F1 by lia. reflexivity. }
    split; [congruence|]. rewrite V2. f_equal.
    assert (I : ors x 0 n = 0 <-> num (mem m) p n = 0).
    { rewrite ors_0, sm_num. fold x.
      assert (K0 : sm (fun _ => 0) n = 0) by (clear; induction n as [|k IH]; cbn [sm]; [reflexivity|rewrite IH; reflexivity]).
      rewrite <- K0 at 1. rewrite sm_inj; [reflexivity|exact Bx|intros; split; reflexivity || lia]. }
    destruct (Z.eqb_spec (ors x 0 n) 0), (Z.eqb_spec (num (mem m) p n) 0); auto; tauto.
  Qed.
End Zero.

(** *** rawIsEq *)
Lemma ew_ne c j k : (j < 3)%nat -> (k < 3)%nat -> j <> k -> ework (c + j) <> ework (c + k).
Proof.
  intros Hj Hk N. unfold ework. intros E.
  pose proof (Nat.div_mod (c + j) 3 ltac:(lia)). pose proof (Nat.div_mod (c + k) 3 ltac:(lia)). lia.
Qed.
Lemma ew_b c : (2 <= ework c <= 4)%nat.
Proof. unfold ework. pose proof (cyc_bound c 3). lia. Qed.
Lemma e4 t k : (k < 4)%nat -> ((t * 4 + k) mod 4 = k)%nat.
Proof. intros H. rewrite Nat.add_comm, Nat.mod_add by lia. apply Nat.mod_small. lia. Qed.

Section IsEq.
  Variables (lay : sym -> Z) (n : nat) (m : mach).
  Let p := xr m 0. Let q := xr m 1.
  Hypothesis Hn : (0 < n)%nat.
  Hypothesis R : area m p n.
  Hypothesis R' : area m q n.
  Let x j := Z.lxor (mem m (p + off j)) (mem m (q + off j)).

  Lemma estep_ok w c t m1 : (1 <= w <= 4)%nat -> (t * 4 + w <= n)%nat -> same m m1 -> xr m1 0 = p -> xr m1 1 = q ->
    exists cs c' m2, estep w c (t * 4) = (cs, ework c', S c') /\ c' = (if Nat.leb w 2 then c else c + 2)%nat /\
      exec lay cs m1 = Some m2 /\ same m1 m2 /\ xr m2 (ework c') = ors x (t * 4) w /\
      (forall r, (r < 2 \/ 17 <= r)%nat -> xr m2 r = xr m1 r) /\
      ((w <= 2)%nat -> xr m2 (ework (c + 2)) = xr m1 (ework (c + 2))).
  Proof.
    intros Hw Hi S1 X1 Y1.
    assert (Q : room m1 p n) by (apply (same_room m); auto; apply area_room, R).
    assert (Q' : room m1 q n) by (apply (same_room m); auto; apply area_room, R').
    pose proof S1 as (M1 & _). pose proof (ew_b c) as W0. pose proof (ew_b (c + 1)) as W1. pose proof (ew_b (c + 2)) as W2.
    assert (N02 : ework c <> ework (c + 2)) by (rewrite <- (Nat.add_0_r c) at 1; apply ew_ne; lia).
    assert (N01 : ework c <> ework (c + 1)) by (rewrite <- (Nat.add_0_r c) at 1; apply ew_ne; lia).
    assert (N12 : ework (c + 1) <> ework (c + 2)) by (apply ew_ne; lia).
    pose proof (e4 t 0 ltac:(lia)) as E0. pose proof (e4 t 1 ltac:(lia)) as E1. pose proof (e4 t 2 ltac:(lia)) as E2. pose proof (e4 t 3 ltac:(lia)) as E3.
    rewrite Nat.add_0_r in E0.
    assert (Mx : forall j, x j = Z.lxor (mem m1 (p + off j)) (mem m1 (q + off j))) by (intros; unfold x; now rewrite M1).
    clearbody x. clear S1 M1 R R'. set (e0 := ework c) in *. set (e1 := ework (c + 1)) in *. set (e2 := ework (c + 2)) in *.
    assert (w = 1 \/ w = 2 \/ w = 3 \/ w = 4)%nat as [ -> | [ -> | [ -> | -> ]]] by lia; cbn [Nat.leb].
    - eexists _, _, _. split; [reflexivity|]. split; [reflexivity|]. unfold ea1, eb1. rewrite E0. fold e0 e1 e2. clear E0 E1 E2 E3. clearbody e0 e1 e2. cbn [exec Nat.add].
      rewrite (ldr_x _ _ _ _ p n) by (auto; lia).
      rewrite (ldr_x _ _ _ _ q n) by (auto; try lia; xs; auto). rewrite eor_x. split; [reflexivity|]. split; [repeat split|].
      split. { xs. cbn [ors]. rewrite Z.lor_0_l, Nat.add_0_r, Mx. reflexivity. }
      split; intros; xs; reflexivity.
    - eexists _, _, _. split; [reflexivity|]. split; [reflexivity|]. unfold ea1, eb1, ec1. rewrite E0, E1. fold e0 e1 e2. clear E0 E1 E2 E3. clearbody e0 e1 e2. cbn [exec Nat.add].
      rewrite (ldp_x _ _ _ _ _ p n) by (auto; lia).
      rewrite (ldp_x _ _ _ _ _ q n) by (auto; try lia; xs; auto). rewrite !eor_x, !orr_x. split; [reflexivity|]. split; [repeat split|].
      split. { xs. cbn [ors]. rewrite Z.lor_0_l, Nat.add_0_r, !Mx. reflexivity. }
      split; intros; xs; reflexivity.
    - eexists _, _, _. split; [cbn [estep app]; reflexivity|]. split; [lia|]. unfold ea1, eb1, ec1. rewrite E0, E1, E2.
      replace (S c) with (c + 1)%nat by lia. replace (S (c + 1)) with (c + 2)%nat by lia.
      fold e0 e1 e2. clear E0 E1 E2 E3. clearbody e0 e1 e2. cbn [Nat.add].
      split. { eld p n. eld q n. do 3 eop. eld p n. eld q n. do 2 eop. reflexivity. }
      split; [repeat split|].
      split. { xs. cbn [ors]. rewrite Z.lor_0_l, Nat.add_0_r, !Mx. reflexivity. }
      split; intros; [xs; reflexivity|lia].
    - eexists _, _, _. split; [cbn [estep app]; reflexivity|]. split; [lia|]. unfold ea1, eb1, ec1.
      replace (t * 4 + 2 + 1)%nat with (t * 4 + 3)%nat by lia. rewrite E0, E1, E2, E3.
      replace (S c) with (c + 1)%nat by lia. replace (S (c + 1)) with (c + 2)%nat by lia.
      fold e0 e1 e2. clear E0 E1 E2 E3. clearbody e0 e1 e2. cbn [Nat.add].
      split. { eld p n. eld q n. do 3 eop. eld p n. eld q n. do 4 eop. reflexivity. }
      split; [repeat split|].
      split. { xs. cbn [ors]. replace (t * 4 + 2 + 1)%nat with (t * 4 + 3)%nat by lia. rewrite Z.lor_0_l, Nat.add_0_r, !Mx, !Z.lor_assoc. reflexivity. }
      split; intros; [xs; reflexivity|lia].
  Qed.

  (** after [k] words; [long]: the accumulator is x17 from the start *)
  Definition EI (long : bool) (k : nat) (s : list instr * option reg * nat) : Prop :=
    let '(code, a, c) := s in
    exists m1, exec lay code m = Some m1 /\ same m m1 /\ (forall r, (r < 2 \/ 18 <= r)%nat -> xr m1 r = xr m r) /\
      match a with
      | None => long = false /\ k = 0%nat
      | Some a => xr m1 a = ors x 0 k /\ (if long then a = 17%nat else a = ework (c + 2) \/ a = 17%nat)
      end.
  Lemma echunk_ok long w t s : (1 <= w <= 4)%nat -> (t * 4 + w <= n)%nat -> EI long (t * 4) s ->
    (long = true \/ snd (fst s) = None \/ (w <= 2)%nat) ->
    let s' := echunk long w t s in
    snd (fst s') <> None /\ (long = true \/ w = 4%nat \/ (w <= 2)%nat -> EI long (t * 4 + w) s') /\
    (exists m1, exec lay (fst (fst s')) m = Some m1 /\ same m m1 /\ (forall r, (r < 2 \/ 18 <= r)%nat -> xr m1 r = xr m r) /\
       forall a, snd (fst s') = Some a -> xr m1 a = ors x 0 (t * 4 + w)).
  Proof.
    intros Hw Hi. destruct s as [[code a] c]. intros (m1 & E1 & S1 & F1 & A1) D. cbn [fst snd] in D.
    destruct (estep_ok w c t m1 Hw Hi S1 (F1 0%nat ltac:(lia)) (F1 1%nat ltac:(lia))) as (cs & c' & m2 & Es & Hc & E2 & S2 & V2 & F2 & P2).
    unfold echunk. rewrite Es. pose proof (ew_b c') as Wb.
    destruct long.
    - destruct a as [a|]; [|destruct A1; discriminate]. destruct A1 as (A1 & ->).
      set (m3 := wr m2 17 (ors x 0 (t * 4 + w))).
      assert (E3 : exec lay (code ++ cs ++ [Orr 17 17 (ework c')]) m = Some m3).
      { rewrite (exec_app _ _ _ _ _ E1), (exec_app _ _ _ _ _ E2). cbn [exec step]. rewrite V2, (F2 17%nat), A1 by lia.
        unfold m3. rewrite (ors_app x 0 (t * 4) w), Nat.add_0_l. reflexivity. }
      assert (S3 : same m m3) by (apply (same_trans _ m1); auto).
      assert (F3 : forall r, (r < 2 \/ 18 <= r)%nat -> xr m3 r = xr m r).
      { intros r Hr. unfold m3. rewrite xr_ne by lia. rewrite F2, F1 by lia. reflexivity. }
      split; [discriminate|]. split.
      + intros _. exists m3. split; [exact E3|]. split; [exact S3|]. split; [exact F3|]. split; [apply xr_eq; lia|reflexivity].
      + exists m3. split; [exact E3|]. split; [exact S3|]. split; [exact F3|]. intros a [= <-]. apply xr_eq. lia.
    - destruct a as [a|].
      + destruct A1 as (A1 & A2).
        assert (w <= 2)%nat as Hw2. { destruct D as [D|[D|D]]; [discriminate|discriminate|exact D]. }
        assert (Pa : xr m2 a = ors x 0 (t * 4)). { destruct A2 as [-> | ->]; [rewrite P2 by auto|rewrite F2 by lia]; exact A1. }
        set (m3 := wr m2 17 (ors x 0 (t * 4 + w))).
        assert (E3 : exec lay (code ++ cs ++ [Orr 17 a (ework c')]) m = Some m3).
        { rewrite (exec_app _ _ _ _ _ E1), (exec_app _ _ _ _ _ E2). cbn [exec step]. rewrite V2, Pa.
          unfold m3. rewrite (ors_app x 0 (t * 4) w), Nat.add_0_l. reflexivity. }
        assert (S3 : same m m3) by (apply (same_trans _ m1); auto).
        assert (F3 : forall r, (r < 2 \/ 18 <= r)%nat -> xr m3 r = xr m r).
        { intros r Hr. unfold m3. rewrite xr_ne by lia. rewrite F2, F1 by lia. reflexivity. }
        split; [discriminate|]. split.
        * intros _. exists m3. split; [exact E3|]. split; [exact S3|]. split; [exact F3|]. split; [apply xr_eq; lia|auto].
        * exists m3. split; [exact E3|]. split; [exact S3|]. split; [exact F3|]. intros a' [= <-]. apply xr_eq. lia.
      + destruct A1 as [_ A1]. rewrite A1 in *. 
        assert (E3 : exec lay (code ++ cs) m = Some m2) by (rewrite (exec_app _ _ _ _ _ E1); exact E2).
        assert (S3 : same m m2) by (apply (same_trans _ m1); auto).
        assert (F3 : forall r, (r < 2 \/ 18 <= r)%nat -> xr m2 r = xr m r).
        { intros r Hr. rewrite F2, F1 by lia. reflexivity. }
        split; [discriminate|]. split.
        * intros _. exists m2. split; [exact E3|]. split; [exact S3|]. split; [exact F3|]. split; [exact V2|]. left.
          unfold ework. f_equal. replace (S c' + 2)%nat with (c' + 1 * 3)%nat by lia. now rewrite Nat.mod_add by lia.
        * exists m2. split; [exact E3|]. split; [exact S3|]. split; [exact F3|]. intros a' [= <-]. exact V2.
  Qed.
  Lemma efold_ok : n <> 7%nat -> exists code a c m1, efold n = (code, Some a, c) /\
    exec lay code m = Some m1 /\ same m m1 /\ (forall r, (r < 2 \/ 18 <= r)%nat -> xr m1 r = xr m r) /\ xr m1 a = ors x 0 n.
  Proof.
    intros N7. pose proof (Nat.div_mod n 4 ltac:(lia)) as Dm. pose proof (cyc_bound n 4 ltac:(lia)) as Mb.
    unfold efold. set (long := Nat.leb 8 n).
    assert (HL : long = true \/ (n / 4 <= 1)%nat).
    { unfold long. destruct (Nat.leb_spec 8 n); [auto|right; lia]. }
    set (s0 := if long then _ else _).
    assert (I0 : EI long 0 s0 /\ (long = true \/ snd (fst s0) = None)).
    { unfold s0. destruct long.
      - split; [|auto]. exists (wr m 17 0). split; [reflexivity|]. split; [repeat split|].
        split; [intros; xs; reflexivity|]. split; [apply xr_eq; lia|reflexivity].
      - split; [|auto]. exists m. split; [reflexivity|]. split; [apply same_refl|]. auto. }
    assert (G : forall k u, (u + k <= n / 4)%nat -> forall s, EI long (u * 4) s ->
              (long = true \/ snd (fst s) = None \/ u = 1%nat) -> ((0 < u)%nat -> snd (fst s) <> None) ->
              let s' := fold_left (fun s i => echunk long 4 i s) (seq u k) s in
              EI long ((u + k) * 4) s' /\ (long = true \/ snd (fst s') = None \/ (u + k = 1)%nat) /\ ((0 < u + k)%nat -> snd (fst s') <> None)).
    { induction k as [|k IH]; intros u Hu s Hs Ha Hb; cbn [seq fold_left].
      - rewrite Nat.add_0_r. auto.
      - assert (D : long = true \/ snd (fst s) = None).
        { destruct Ha as [Ha|[Ha|Ha]]; auto. destruct HL as [HL|HL]; [auto|lia]. }
        destruct (echunk_ok long 4 u s) as (Z1 & Z2 & _); [lia|lia|exact Hs|tauto|].
        rewrite <- Nat.add_succ_comm. apply IH; [lia| | |auto].
        + replace (S u * 4)%nat with (u * 4 + 4)%nat by lia. apply Z2. auto.
        + destruct HL as [HL|HL]; [auto|]. right. right. lia. }
    destruct (G (n / 4)%nat 0%nat ltac:(lia) s0) as (G1 & G2 & G3); [apply I0|destruct I0; tauto|lia|].
    cbn [Nat.add] in G1, G2, G3.
    set (s := fold_left _ _ _) in *. clearbody s. clear G.
    destruct (Nat.eqb_spec (n mod 4) 0) as [E|E].
    - specialize (G3 ltac:(lia)). replace (n / 4 * 4)%nat with n in G1 by lia. destruct s as [[code a] c]. cbn [fst snd] in *.
      destruct a as [a|]; [|now elim G3]. destruct G1 as (m1 & H1 & H2 & H3 & H4 & _). exists code, a, c, m1. auto.
    - destruct (echunk_ok long (n mod 4) (n / 4) s) as (Z1 & _ & m1 & H1 & H2 & H3 & H4); [lia|lia|exact G1| |].
      { destruct G2 as [G2|[G2|G2]]; auto. unfold long. destruct (Nat.leb_spec 8 n); auto. right. right. lia. }
      destruct (echunk long (n mod 4) (n / 4) s) as [[code a] c]. cbn [fst snd] in *.
      destruct a as [a|]; [|now elim Z1]. exists code, a, c, m1. replace (n / 4 * 4 + n mod 4)%nat with n in H4 by lia. auto 6.
  Qed.
  Lemma isEq_ok : n <> 7%nat -> exists m', run lay None (rawIsEq n) m = Some m' /\ kept m m' /\ mem m' = mem m /\
    xr m' 0 = b2z (num (mem m) p n =? num (mem m) q n).
  Proof.
    intros N7. destruct (efold_ok N7) as (code & a & c & m1 & Ef & E1 & S1 & F1 & A1). unfold rawIsEq. rewrite Ef.
    assert (Bp' : forall j, (j < n)%nat -> 0 <= mem m (p + off j) < B) by (intros j Hj; destruct R as (_ & _ & _ & Q); apply Q; auto).
    assert (Bq' : forall j, (j < n)%nat -> 0 <= mem m (q + off j) < B) by (intros j Hj; destruct R' as (_ & _ & _ & Q); apply Q; auto).
    assert (Bx : forall j, (j < n)%nat -> 0 <= x j < B).
    { intros j Hj. unfold x. pose proof (Bp' j Hj). pose proof (Bq' j Hj).
      assert (P0 : 0 <= Z.lxor (mem m (p + off j)) (mem m (q + off j))) by (apply Z.lxor_nonneg; lia). split; [exact P0|].
      destruct (Z.eq_dec (Z.lxor (mem m (p + off j)) (mem m (q + off j))) 0) as [->|N]; [reflexivity|].
      change B with (2 ^ 64) in *. apply Z.log2_lt_pow2; [lia|].
      eapply Z.le_lt_trans; [apply Z.log2_lxor; lia|]. apply Z.max_lub_lt.
      - destruct (Z.eq_dec (mem m (p + off j)) 0) as [->|]; [reflexivity|]. apply Z.log2_lt_pow2; lia.
      - destruct (Z.eq_dec (mem m (q + off j)) 0) as [->|]; [reflexivity|]. apply Z.log2_lt_pow2; lia. }
    destruct (zero_end lay a m1 _ A1) as (m2 & E2 & S2 & F2 & V2). { apply ors_b, Bx. }
    exists m2. rewrite (run_exec _ _ _ _ _ E1). split; [exact E2|].
    destruct S1 as (s1 & s2 & s3). destruct S2 as (t1 & t2 & t3).
    split. { split; [congruence|]. split; [congruence|]. intros r Hr. rewrite F2, F1 by lia. reflexivity. }
    split; [congruence|]. rewrite V2. f_equal.
    assert (I : ors x 0 n = 0 <-> num (mem m) p n = num (mem m) q n).
    { rewrite ors_0, !sm_num, sm_inj by auto. unfold x. cbn [Nat.add]. split; intros H j Hj; apply Z.lxor_eq_0_iff; auto. }
    destruct (Z.eqb_spec (ors x 0 n) 0), (Z.eqb_spec (num (mem m) p n) (num (mem m) q n)); auto; tauto.
  Qed.
End IsEq.
