(** Properties C26, C27, C37. *)
From Coq Require Import ZArith List Lia Bool.
From Verif Require Import Bytes BytesFacts Group Naf NafFacts.
Import ListNotations.
Open Scope Z_scope.
Ltac Zify.zify_post_hook ::= idtac.

(** ** C26.  Digit codes 0, 1, 2 stand for 0, 1, -1.  The integer a digit string
    stands for is written here as an explicit sum. *)
Definition coded (d : Z) : Z := match d with 2 => -1 | _ => d end.
Fixpoint weighted (w : Z) (l : list Z) : Z := match l with [] => 0 | d :: l => w * coded d + weighted (2 * w) l end.
Lemma weighted_val l : Forall (fun d => d = 0 \/ d = 1 \/ d = 2) l -> forall w, weighted w l = w * naf_val l.
Proof.
  induction 1 as [|d l Hd Hl IH]; intros w; cbn [weighted naf_val]; [lia|]. rewrite IH.
  unfold naf_digit. destruct Hd as [H|[H|H]]; rewrite H; unfold coded; cbn [Z.eqb Pos.eqb]; ring.
Qed.
Lemma nonadj_nth l i : nonadj l = true -> nth i l 0 = 0 \/ nth (i + 1) l 0 = 0.
Proof.
  revert i; induction l as [|d l IH]; intros i H; [left; destruct i; reflexivity|].
  destruct l as [|e l]; [destruct i as [|[|i]]; right; reflexivity|].
  cbn [nonadj] in H. apply andb_true_iff in H as [H1 H2]. destruct i; [|apply IH; exact H2].
  cbn. apply orb_true_iff in H1. rewrite !Z.eqb_eq in H1. exact H1.
Qed.
Theorem C26_naf : forall s, bytes_ok s -> s <> [] -> exists naf, buildNaf s = Some naf /\
  length naf = ((length s + 2) * 8)%nat /\
  Forall (fun d => d = 0 \/ d = 1 \/ d = 2) naf /\
  (forall i, nth i naf 0 = 0 \/ nth (i + 1) naf 0 = 0) /\
  weighted 1 naf = le_val s /\
  (forall i, (length s * 8 + 2 <= i)%nat -> nth i naf 0 = 0).
Proof.
  intros s Hs N. destruct (buildNaf_some s N) as [naf E]. exists naf.
  destruct (buildNaf_spec s naf Hs E) as (H1 & H2 & H3 & H4 & H5).
  assert (F : Forall (fun d => d = 0 \/ d = 1 \/ d = 2) naf).
  { apply Forall_forall. intros d Hd. rewrite forallb_forall in H2. specialize (H2 d Hd). unfold trit in H2. lia. }
  split; [exact E|]. split; [exact H1|]. split; [exact F|].
  split; [intros i; apply nonadj_nth, H3|]. split; [|exact H5]. rewrite weighted_val, H4 by exact F. lia.
Qed.
Print Assumptions C26_naf.
Example C26_run : exists naf, buildNaf [0xEF; 0xBE] = Some naf /\ firstn 18 naf = [2;0;0;0;2;0;0;0;2;0;0;0;0;0;2;0;1;0] /\ weighted 1 naf = 0xBEEF.
Proof. eexists. split; [vm_compute; reflexivity|]. split; vm_compute; reflexivity. Qed.

(** ** C27.  For every abelian group, every way of representing its elements by
    objects, every memory and every choice of result and base cell.
    Full claim: every scalar length; it is false from 2^28 bytes on. *)
Theorem C27_mulByScalar_partial : forall (A : abgroup) (E : Type) (zero : E) (dbl : E -> E) (add sub : E -> E -> E) (rep repB : E -> A -> Prop),
  rep zero gzero ->
  (forall e x, rep e x -> rep (dbl e) (gadd x x)) ->
  (forall e x b y, rep e x -> repB b y -> rep (add e b) (gadd x y)) ->
  (forall e x b y, rep e x -> repB b y -> rep (sub e b) (gadd x (gneg y))) ->
  forall r base s m y, bytes_ok s -> s <> [] -> Z.of_nat (length s) < 2 ^ 28 -> repB (m base) y ->
  exists m', nafMul zero dbl add sub r base s m = Some m' /\ rep (m' r) (zmul (le_val s) y) /\ forall p, p <> r -> m' p = m p.
Proof. exact nafMul_spec. Qed.
Print Assumptions C27_mulByScalar_partial.
Lemma long_scalar k : Z.of_nat k = 2 ^ 28 - 1 -> exists s m m', bytes_ok s /\ s <> [] /\ Z.of_nat (length s) < 2 ^ 32 /\ le_val s = 1 /\
  m 0%nat = 5 /\ nafMul 0 (fun x => x + x) Z.add Z.sub 1 0 s m = Some m' /\ m' 1%nat = 0.
Proof.
  intros Hk. exists (1 :: repeat 0 k), (fun _ => 5), (gset (fun _ => 5) 1 0).
  assert (Z0 : forall k, le_val (repeat 0 k) = 0).
  { intros j; induction j as [|j IH]; [reflexivity|]. cbn [repeat le_val]. rewrite IH. reflexivity. }
  assert (L : Z.of_nat (length (1 :: repeat 0 k)) = 2 ^ 28).
  { cbn [length]. rewrite repeat_length, Nat2Z.inj_succ, Hk. reflexivity. }
  split. { constructor; [lia|]. apply Forall_forall. intros x Hx. apply repeat_spec in Hx. lia. }
  split; [discriminate|]. split; [lia|]. split; [cbn [le_val]; rewrite Z0; reflexivity|]. split; [reflexivity|].
  split; [|reflexivity]. apply nafMul_long; [discriminate|lia].
Qed.
(** 1 * 5 = 0 in Z for a scalar written with 2^28 bytes (nBits overflows int). *)
Theorem C27_long_scalar_refuted : exists s m m', bytes_ok s /\ s <> [] /\ Z.of_nat (length s) < 2 ^ 32 /\ le_val s = 1 /\
  m 0%nat = 5 /\ nafMul 0 (fun x => x + x) Z.add Z.sub 1 0 s m = Some m' /\ m' 1%nat = 0.
Proof. apply (long_scalar (Z.to_nat (2 ^ 28 - 1))). apply Z2Nat.id. lia. Qed.
Print Assumptions C27_long_scalar_refuted.
(** The hypotheses hold in the group Z; a run in place. *)
Example C27_hyp : let rep := fun (e : Z) (x : Zgroup) => e = x in
  rep 0 gzero /\ (forall e x, rep e x -> rep (e + e) (gadd x x)) /\
  (forall e x b y, rep e x -> rep b y -> rep (e + b) (gadd x y)) /\
  (forall e x b y, rep e x -> rep b y -> rep (e - b) (gadd x (gneg y))) /\
  (match nafMul 0 (fun x => x + x) Z.add Z.sub 3 3 [0xEF; 0xBE] (fun p => Z.of_nat p) with Some m' => m' 3%nat | None => 0 end) = 3 * 0xBEEF.
Proof.
  cbv zeta. split; [reflexivity|]. split; [intros e x ->; reflexivity|]. split; [intros e x b y -> ->; reflexivity|].
  split; [intros e x b y -> ->; reflexivity|]. vm_compute. reflexivity.
Qed.

(** ** C37 *)
Theorem C37_log2 : forall x, 0 <= x < 2 ^ 32 ->
  (0 < x -> 2 ^ log2_u32 x <= x < 2 ^ (log2_u32 x + 1)) /\ (x = 0 -> log2_u32 x = 0).
Proof.
  intros x Hx. split; [|intros ->; reflexivity]. intros Hp. rewrite log2_spec by lia. apply (Z.log2_spec x Hp).
Qed.
Print Assumptions C37_log2.
Example C37_run : log2_u32 (2 ^ 32 - 1) = 31 /\ log2_u32 (2 ^ 20) = 20. Proof. split; reflexivity. Qed.
