(** Property C57: the parallel loops of multiexp and MSM have no data race, and
    every interleaving of their memory operations leaves the arrays that running
    the iterations one after the other leaves. *)
From Coq Require Import ZArith List Bool Lia Permutation.
From Verif Require Import Bytes Naf Multiexp Msm MsmFacts Par RaceModel RaceFacts.
Import ListNotations.
Open Scope Z_scope.

(** [ts]: the threads with the iterations they run.  [inter codes l]: l is an
    interleaving of the threads.  [ofold step (one_by_one ts)]: the loop of
    Multiexp.v or Msm.v, one iteration after the other. *)

(** ** processChunk: threads have different numbers *)
Theorem C57_processChunk : forall (E : Type) (zero : E) (addm : E -> E -> E) (iszm : E -> bool) skip bases scalars S bits chunk nT (ts : list thread),
  0 <= bits -> 0 <= chunk * bits < 8 * S -> 8 * S < 2 ^ 64 - bits -> nT * 2 ^ bits <= 2 ^ 64 ->
  (forall t, In t ts -> 0 <= fst t < nT) -> NoDup (map fst ts) ->
  let codes := map (thread_code (pc_code E zero addm iszm skip bases scalars S bits (2 ^ bits) chunk)) ts in
  race_free codes /\ forall l, inter codes l -> forall accs accs' m,
    ofold (pc_iter E addm iszm skip bases scalars S bits (2 ^ bits) chunk) (one_by_one ts) accs = Some accs' -> holds 0 accs m -> holds 0 accs' (prun l m).
Proof. intros. split; [eapply pc_race; eassumption|]. intros l I accs accs' m. eapply pc_par; eassumption. Qed.
Print Assumptions C57_processChunk.

(** ** packThreads: threads run different iterations *)
Theorem C57_packThreads : forall (E : Type) (zero : E) (add : E -> E -> E) (isz : E -> bool) nT apc (ts : list thread),
  0 < apc -> nT * apc <= 2 ^ 64 -> (forall t i, In t ts -> In i (snd t) -> 0 <= i < apc) -> NoDup (flat_map snd ts) ->
  let codes := map (thread_code (pt_code E zero add isz nT apc)) ts in
  race_free codes /\ forall l, inter codes l -> forall accs accs' m,
    ofold (fun it => pt_iter E zero add isz nT apc (fst it)) (one_by_one ts) accs = Some accs' -> holds 0 accs m -> holds 0 accs' (prun l m).
Proof. intros. split; [apply pt_race; assumption|]. intros l I accs accs' m. apply pt_par; assumption. Qed.
Print Assumptions C57_packThreads.

(** ** reduce: both; array 1 is sall *)
Theorem C57_reduce : forall (E : Type) (zero : E) (add : E -> E -> E) (isz : E -> bool) ndiv2 (ts : list thread),
  2 * ndiv2 <= 2 ^ 64 -> (forall t i, In t ts -> In i (snd t) -> 1 <= i < ndiv2) -> NoDup (flat_map snd ts) -> NoDup (map fst ts) ->
  let codes := map (thread_code (rd_code E zero add isz ndiv2)) ts in
  race_free codes /\ forall l, inter codes l -> forall accs sall accs' sall' m,
    ofold (rd_iter E zero add isz ndiv2) (one_by_one ts) (accs, sall) = Some (accs', sall') ->
    holds 0 accs m -> holds 1 sall m -> holds 0 accs' (prun l m) /\ holds 1 sall' (prun l m).
Proof.
  intros E zero add isz nd ts H1 H2 H3 H4. split; [apply rd_race; assumption|]. intros l I accs sall accs' sall' m Q R0 R1.
  apply (rd_par E zero add isz nd ts H1 H2 H3 H4 l (accs, sall) (accs', sall') m I Q (conj R0 R1)).
Qed.
Print Assumptions C57_reduce.

(** ** MSM: slicing of the scalars *)
Theorem C57_slices : forall scalars S bits nC nB nP (ts : list thread),
  0 < nC -> nP * nC <= 2 ^ 64 -> (forall t i, In t ts -> In i (snd t) -> 0 <= i < nP) -> NoDup (flat_map snd ts) -> NoDup (map fst ts) ->
  let codes := map (thread_code (slice_code scalars S bits nC nB)) ts in
  race_free codes /\ forall l, inter codes l -> forall sl sl' m,
    ofold (fun it => slice_iter scalars S bits nC nB (fst it)) (one_by_one ts) sl = Some sl' -> holds 0 sl m -> holds 0 sl' (prun l m).
Proof. intros. split; [eapply sl_race; eassumption|]. intros l I sl sl' m. eapply sl_par; eassumption. Qed.
Print Assumptions C57_slices.

(** ** MSM: the chunks; array 1 is chunks.  The hypothesis on the slices is what
    the slicing loop establishes, see C57_sliced. *)
Theorem C57_chunks : forall (E : Type) (zero : E) (add addm subm : E -> E -> E) bases sliced nC nB nP nT (ts : list thread),
  0 < nB -> nT * nB <= 2 ^ 64 -> (forall k v, aget sliced k = Some v -> - nB <= v <= nB) ->
  (forall t, In t ts -> 0 <= fst t < nT) -> NoDup (flat_map snd ts) -> NoDup (map fst ts) ->
  let codes := map (thread_code (chunk_code E zero add addm subm bases sliced nC nB nP)) ts in
  race_free codes /\ forall l, inter codes l -> forall bm ch bm' ch' m,
    ofold (chunk_iter E zero add addm subm bases sliced nC nB nP) (one_by_one ts) (bm, ch) = Some (bm', ch') ->
    holds 0 bm m -> holds 1 ch m -> holds 0 bm' (prun l m) /\ holds 1 ch' (prun l m).
Proof.
  intros E zero add addm subm bases sliced nC nB nP nT ts H1 H2 H3 H4 H5 H6. split; [eapply ch_race; eassumption|]. intros l I bm ch bm' ch' m Q R0 R1.
  apply (ch_par E zero add addm subm bases sliced nC nB nP nT ts H1 H2 H3 H4 H5 H6 l (bm, ch) (bm', ch') m I Q (conj R0 R1)).
Qed.
Print Assumptions C57_chunks.
Theorem C57_sliced : forall scalars S n bits sched sliced sl,
  bytes_ok scalars -> 8 <= S < 2 ^ 28 -> Z.of_nat (length scalars) = n * S -> 0 <= n < 2 ^ 31 -> 1 <= bits <= 16 ->
  let nC := calcChunkCount S bits in let nB := calcBucketCount bits in
  Permutation sched (zrange 0 (Z.to_nat n)) -> Z.of_nat (length sliced) = nC * n ->
  ofold (slice_iter scalars S bits nC nB) sched sliced = Some sl -> forall k v, aget sl k = Some v -> - nB <= v < nB.
Proof. exact sliced_range. Qed.
Print Assumptions C57_sliced.

(** ** Examples: integers for points, two threads, the second one first and the
    two alternating *)
Definition zmem (l0 l1 : list Z) : pmem Z := fun a => match a with Sh 0 k => nth (Z.to_nat k) l0 0 | Sh 1 k => nth (Z.to_nat k) l1 0 | _ => 77 end.
Fixpoint weave {X} (a b : list X) : list X := match a with [] => b | x :: a => match b with [] => x :: a | y :: b => y :: x :: weave a b end end.
Lemma weave_inter {V} (a b : list (instr V)) : inter [a; b] (weave a b).
Proof.
  revert b. induction a as [|x a IH]; intros b; cbn.
  - induction b as [|y b IHb]; [constructor; repeat constructor|]. apply (inter_cons V [[]] y b [] b). exact IHb.
  - destruct b as [|y b].
    + apply (inter_cons V [] x a [[]] a). clear. induction a as [|y a IH]; [constructor; repeat constructor|]. apply (inter_cons V [] y a [[]] a). exact IH.
    + apply (inter_cons V [x :: a] y b []). apply (inter_cons V [] x a [b]). apply IH.
Qed.
Definition zshow (m : pmem Z) (arr : nat) (k : nat) : list Z := map (fun i => m (Sh arr (Z.of_nat i))) (seq 0 k).
Definition sc2 : list Z := [1; 0; 0; 0; 0; 0; 0; 0; 3; 0; 0; 0; 0; 0; 0; 0; 1; 0; 0; 0; 0; 0; 0; 0; 2; 0; 0; 0; 0; 0; 0; 0].
Definition ts4 : list thread := [(0, [0; 2]); (1, [1; 3])].
Notation pcz := (thread_code (pc_code Z 0 Z.add (fun x => x =? 0) no_skip [10; 20; 30; 40] sc2 8 2 (2 ^ 2) 0)).
Example C57_processChunk_hyp :
  let l := weave (pcz (0, [0; 2])) (pcz (1, [1; 3])) in
  inter (map pcz ts4) l /\ length l = 4%nat /\ ofold (pc_iter Z Z.add (fun x => x =? 0) no_skip [10; 20; 30; 40] sc2 8 2 (2 ^ 2) 0) (one_by_one ts4) (repeat 0 8) = Some [0; 40; 0; 0; 0; 0; 40; 20] /\
  zshow (prun l (zmem (repeat 0 8) [])) 0 8 = [0; 40; 0; 0; 0; 0; 40; 20].
Proof. split; [apply weave_inter|]. vm_compute. repeat split. Qed.
(** threads with the same number would race *)
Example C57_same_number : ~ race_free (map pcz [(0, [0]); (0, [2])]).
Proof. intros H. inversion H as [|x l F _ E]; subst. inversion F as [|y l' G _ E']; subst. destruct (G _ _ (or_introl eq_refl) (or_introl eq_refl)) as [N _]. apply N. reflexivity. Qed.
Notation rdz := (thread_code (rd_code Z 0 Z.add (fun x => x =? 0) 4)).
Example C57_reduce_hyp :
  let l := weave (rdz (0, [1; 3])) (rdz (1, [2])) in
  inter (map rdz [(0, [1; 3]); (1, [2])]) l /\
  ofold (rd_iter Z 0 Z.add (fun x => x =? 0) 4) (one_by_one [(0, [1; 3]); (1, [2])]) ([0; 1; 2; 3; 4; 5; 6; 7], [0; 0]) = Some ([0; 6; 8; 10; 4; 0; 0; 0], [12; 6]) /\
  let m := prun l (zmem [0; 1; 2; 3; 4; 5; 6; 7] [0; 0]) in zshow m 0 8 = [0; 6; 8; 10; 4; 0; 0; 0] /\ zshow m 1 2 = [12; 6].
Proof. split; [apply weave_inter|]. vm_compute. repeat split. Qed.
Notation ptz := (thread_code (pt_code Z 0 Z.add (fun x => x =? 0) 3 2)).
Example C57_packThreads_hyp :
  let l := weave (ptz (0, [0])) (ptz (1, [1])) in
  inter (map ptz [(0, [0]); (1, [1])]) l /\
  ofold (fun it => pt_iter Z 0 Z.add (fun x => x =? 0) 3 2 (fst it)) (one_by_one [(0, [0]); (1, [1])]) [1; 2; 3; 4; 5; 6] = Some [9; 12; 0; 0; 0; 0] /\
  zshow (prun l (zmem [1; 2; 3; 4; 5; 6] [])) 0 6 = [9; 12; 0; 0; 0; 0].
Proof. split; [apply weave_inter|]. vm_compute. repeat split. Qed.
(** four one-word scalars, chunks of 16 bits: 4 chunks, 2^15 buckets *)
Definition sc3 : list Z := [255; 255; 0; 0; 0; 0; 0; 0; 3; 0; 7; 0; 0; 0; 0; 0].
Notation slz := (thread_code (slice_code sc3 8 16 4 (2 ^ 15))).
Example C57_slices_hyp :
  let l := weave (slz (0, [0])) (slz (1, [1])) in
  inter (map slz [(0, [0]); (1, [1])]) l /\
  ofold (fun it => slice_iter sc3 8 16 4 (2 ^ 15) (fst it)) (one_by_one [(0, [0]); (1, [1])]) (repeat 9 8) = Some [-1; 1; 0; 0; 3; 7; 0; 0] /\
  zshow (prun l (zmem (repeat 9 8) [])) 0 8 = [-1; 1; 0; 0; 3; 7; 0; 0].
Proof. split; [apply weave_inter|]. vm_compute. repeat split. Qed.
(** two points, two chunks, two buckets *)
Notation chz := (thread_code (chunk_code Z 0 Z.add Z.add Z.sub [10; 100] [1; -2; 2; 1] 2 2 2)).
Example C57_chunks_hyp :
  let l := weave (chz (0, [0])) (chz (1, [1])) in
  inter (map chz [(0, [0]); (1, [1])]) l /\
  ofold (chunk_iter Z 0 Z.add Z.add Z.sub [10; 100] [1; -2; 2; 1] 2 2 2) (one_by_one [(0, [0]); (1, [1])]) ([5; 6; 7; 8], [1; 2]) = Some ([10; 100; 100; -10], [210; 80]) /\
  let m := prun l (zmem [5; 6; 7; 8] [1; 2]) in zshow m 0 4 = [10; 100; 100; -10] /\ zshow m 1 2 = [210; 80].
Proof. split; [apply weave_inter|]. vm_compute. repeat split. Qed.
