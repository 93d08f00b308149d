(** Property C41: parallel loops. *)
From Coq Require Import ZArith List Bool Lia Arith.
From Verif Require Import Multiexp MultiexpFacts MsmFacts Tower Zp Par ParFacts Threads ThreadsFacts Fft FftFacts.
Import ListNotations.
Open Scope Z_scope.
Ltac Zify.zify_post_hook ::= idtac.

(** the calls func(from, to, thread): the ranges [from, to) are non-empty and,
    put side by side, are exactly [b, e); every call has its own thread *)
Theorem C41_partition : forall nT b e, 1 <= nT < 2 ^ 31 -> - 2 ^ 31 <= b < e -> e < 2 ^ 31 -> e - b < 2 ^ 31 -> exists calls, parallelFor_calls nT b e = Some calls /\
  flat_map (fun c => zrange (fst (fst c)) (Z.to_nat (snd (fst c) - fst (fst c)))) calls = zrange b (Z.to_nat (e - b)) /\
  map snd calls = zrange 0 (Z.to_nat (Z.min (e - b) nT)) /\ forall c, In c calls -> b <= fst (fst c) < snd (fst c) /\ snd (fst c) <= e.
Proof. exact parallelFor_calls_int. Qed.
Print Assumptions C41_partition.
(** the work is shared out evenly *)
Theorem C41_balanced : forall c t, 0 < c -> 0 < t -> exists jobs, divideWork c t = Some jobs /\ fold_right Z.add 0 jobs = c /\ forall j j', In j jobs -> In j' jobs -> 1 <= j /\ j <= j' + 1.
Proof.
  intros c t Hc Ht. destruct (divideWork_ok c t Hc Ht) as (jobs & E & _ & S & s & Hs & J). exists jobs. split; [exact E|]. split; [exact S|]. intros j j' Hj Hj'. destruct (J j Hj), (J j' Hj'); lia.
Qed.
Print Assumptions C41_balanced.
(** empty ranges are rejected *)
Theorem C41_empty : forall nT b e, - 2 ^ 31 <= e <= b -> b < 2 ^ 31 -> parallelFor_calls nT b e = None.
Proof.
  intros nT b e He Hb. unfold parallelFor_calls. rewrite !s32_small by lia. destruct (_ || _); [reflexivity|]. unfold divideWork. destruct (Z.leb_spec (e - b) 0); [reflexivity|lia].
Qed.
Print Assumptions C41_empty.
Example C41_ex : parallelFor_calls 3 (-2) 6 = Some [(-2, 1, 0); (1, 4, 1); (4, 6, 2)]. Proof. reflexivity. Qed.

(** a loop whose iterations do not touch each other's cells *)
Theorem C41_any_loop : forall (V : Type) (body : Z -> Z -> list (instr V)) nT b e m m', 1 <= nT < 2 ^ 31 -> 0 <= b < e -> e < 2 ^ 31 ->
  (forall i j th th', b <= i < e -> b <= j < e -> i <> j -> th <> th' -> indep (body th i) (body th' j)) -> parfor V nT b e body m m' ->
  exists th : Z -> Z, meq m' (prun (flat_map (fun i => body (th i) i) (zrange b (Z.to_nat (e - b)))) m).
Proof.
  intros V body nT b e m m' HT Hb He HI H. destruct (parfor_seq V body nT b e m m' HT Hb He HI H) as (its & E1 & _ & E2).
  assert (ND : NoDup (map snd its)) by (rewrite E1; apply zrange_nodup).
  exists (fun i => match find (fun it => snd it =? i) its with Some it => fst it | None => 0 end). eapply meq_trans; [exact E2|]. rewrite <- E1.
  assert (G : forall l, incl l its -> flat_map (fun it => body (fst it) (snd it)) l = flat_map (fun i => body (match find (fun it => snd it =? i) its with Some it => fst it | None => 0 end) i) (map snd l)); [|rewrite (G its (incl_refl _)); apply meq_refl].
  intros l Hl. induction l as [|[t i] l IH]; [reflexivity|]. cbn [flat_map map fst snd]. rewrite IH by (intros x Hx; apply Hl; right; exact Hx). f_equal.
  assert (Hi : In (t, i) its) by (apply Hl; left; reflexivity). clear - ND Hi. induction its as [|[t' i'] its IH]; [destruct Hi|]. cbn [find snd]. cbn [map snd] in ND. inversion ND as [|? ? NI ND']; subst.
  destruct (Z.eqb_spec i' i) as [->|N].
  - destruct Hi as [Q|Hi]; [injection Q as -> ; reflexivity|]. exfalso. apply NI. apply (in_map snd) in Hi. exact Hi.
  - destruct Hi as [Q|Hi]; [congruence|]. apply IH; assumption.
Qed.
Print Assumptions C41_any_loop.
(** the loops of FFT: no conflicts, and every execution, on any number of
    threads, leaves the same arrays *)
Definition same_arrays {V} (m m' : pmem V) : Prop := forall a i, m (Sh a i) = m' (Sh a i).
Theorem C41_rev : forall (K : rng) p nT nT' m m1 m2, (p <= 30)%nat -> 1 <= nT < 2 ^ 31 -> 1 <= nT' < 2 ^ 31 -> let body := rev_body K (Z.of_nat p) in let n := 2 ^ Z.of_nat p in
  (forall i j th th', 0 <= i < n -> 0 <= j < n -> i <> j -> th <> th' -> indep (body th i) (body th' j)) /\
  (parfor K nT 0 n body m m1 -> parfor K nT' 0 n body m m2 -> same_arrays m1 m2).
Proof.
  intros K p nT nT' m m1 m2 Hp HT HT' body n. split; [apply rev_indep; [exact Hp|lia|unfold n; lia]|]. intros H1 H2. destruct (rev_loop K nT HT p m m1 Hp H1) as (A1 & B1 & C1). destruct (rev_loop K nT' HT' p m m2 Hp H2) as (A2 & B2 & C2).
  intros [|a] i; [|rewrite A1, A2 by lia; reflexivity]. destruct (Z_lt_ge_dec i 0); [rewrite C1, C2 by lia; reflexivity|]. destruct (Z_lt_ge_dec i (2 ^ Z.of_nat p)); [rewrite B1, B2 by lia; reflexivity|rewrite C1, C2 by lia; reflexivity].
Qed.
Print Assumptions C41_rev.
Theorem C41_butterflies : forall (K : rng) S s N nT nT' m m1 m2, 1 <= s -> 0 < N < 2 ^ 31 -> 1 <= nT < 2 ^ 31 -> 1 <= nT' < 2 ^ 31 -> let body := fft_body K S s in
  (forall i j th th', 0 <= i < N -> 0 <= j < N -> i <> j -> th <> th' -> indep (body th i) (body th' j)) /\
  (parfor K nT 0 N body m m1 -> parfor K nT' 0 N body m m2 -> same_arrays m1 m2).
Proof.
  intros K S s N nT nT' m m1 m2 Hs HN HT HT' body. split; [apply fft_indep, Hs|]. intros H1 H2. destruct (fft_loop K nT HT S s N m m1 Hs HN H1) as (A1 & B1 & C1). destruct (fft_loop K nT' HT' S s N m m2 Hs HN H2) as (A2 & B2 & C2).
  intros [|a] i; [|rewrite A1, A2 by lia; reflexivity]. set (h := 2 ^ (s - 1)) in *.
  destruct (find (fun j => (i =? lo h j) || (i =? lo h j + h)) (zrange 0 (Z.to_nat N))) as [j|] eqn:E.
  - apply find_some in E. destruct E as [Hj E]. apply zrange_in in Hj. destruct (B1 j ltac:(lia)) as [B11 B12]. destruct (B2 j ltac:(lia)) as [B21 B22].
    apply orb_true_iff in E. destruct E as [E|E]; apply Z.eqb_eq in E; rewrite E; [rewrite B11, B21|rewrite B12, B22]; reflexivity.
  - assert (O : forall j, 0 <= j < N -> i <> lo h j /\ i <> lo h j + h).
    { intros j Hj. assert (Q := find_none _ _ E j). cbn beta in Q. rewrite zrange_in in Q. specialize (Q ltac:(lia)). apply orb_false_iff in Q. destruct Q as [Q1 Q2]. apply Z.eqb_neq in Q1. apply Z.eqb_neq in Q2. split; assumption. }
    rewrite C1, C2 by exact O. reflexivity.
Qed.
Print Assumptions C41_butterflies.
Theorem C41_final : forall (K : rng) n dp N nT nT' m m1 m2, 1 < N < 2 ^ 31 -> 2 * N <= n -> 1 <= nT < 2 ^ 31 -> 1 <= nT' < 2 ^ 31 -> let body := inv_body K n dp in
  (forall i j th th', 1 <= i < N -> 1 <= j < N -> i <> j -> th <> th' -> indep (body th i) (body th' j)) /\
  (parfor K nT 1 N body m m1 -> parfor K nT' 1 N body m m2 -> same_arrays m1 m2).
Proof.
  intros K n dp N nT nT' m m1 m2 HN Hn HT HT' body. split; [apply inv_indep; lia|]. intros H1 H2. destruct (inv_loop K nT HT n dp N m m1 ltac:(lia) Hn ltac:(lia) H1) as (A1 & B1 & C1). destruct (inv_loop K nT' HT' n dp N m m2 ltac:(lia) Hn ltac:(lia) H2) as (A2 & B2 & C2).
  intros [|a] i; [|rewrite A1, A2 by lia; reflexivity].
  assert (D : (1 <= i < N \/ 1 <= n - i < N) \/ ~ (1 <= i < N \/ 1 <= n - i < N)) by lia. destruct D as [D|D]; [rewrite B1, B2 by exact D; reflexivity|rewrite C1, C2 by exact D; reflexivity].
Qed.
Print Assumptions C41_final.
(** an execution that alternates between the two threads *)
Definition bodyx : Z -> Z -> list (instr F7) := fft_body F7 2 1.
Example C41_ex_inter : inter (map (job_code F7 bodyx) [(0, 1, 0); (1, 2, 1)])
  (flat_map (fun k => match nth_error (bodyx 1 1) k, nth_error (bodyx 0 0) k with Some x, Some y => [x; y] | _, _ => [] end) (seq 0 4)).
Proof.
  cbn. apply (inter_cons _ [[_; _; _; _]]). apply (inter_cons _ []). apply (inter_cons _ [[_; _; _]]). apply (inter_cons _ []). apply (inter_cons _ [[_; _]]). apply (inter_cons _ []). apply (inter_cons _ [[_]]). apply (inter_cons _ []). constructor. repeat constructor.
Qed.
