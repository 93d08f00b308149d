(** Property C56: ThreadPool on its workers. *)
From Coq Require Import ZArith List Bool Arith Lia.
From Verif Require Import Worker WorkerFacts Multiexp Threads Pool PoolFacts.
Import ListNotations.
Open Scope nat_scope.

(** whatever the interleaving of the workers and the caller, the events so far are
    those of the finished calls, one after the other, and then some of the current
    one.  During a call each of its jobs is run exactly once from start to end (job
    k by worker k, the last one by the caller), so nothing of a job happens before
    its call begins or after it has returned.  When the caller is done all calls
    are finished. *)
Theorem C56_calls : forall nw calls p, preach nw calls p ->
  exists segs cur, plog p = concat segs ++ cur /\ exists finished rest, calls = finished ++ rest /\ Forall2 call_events finished segs /\
    (pool_done p -> rest = [] /\ cur = []).
Proof.
  intros nw calls p R. destruct (segments nw calls p R) as (segs & cur & E & dn & rest & Ec & F & D). exists segs, cur. split; [exact E|]. exists dn, rest. split; [exact Ec|]. split; [exact F|]. intros [D1 D2]. apply D; assumption.
Qed.
Print Assumptions C56_calls.
(** no deadlock and no endless run: if no call has more jobs than there are
    threads, a run without spurious wake-ups from any reachable state has bounded
    length and can only stop when all calls have returned *)
Theorem C56_progress : forall nw calls p, Forall (fun jobs => length jobs <= S nw) calls -> preach nw calls p ->
  (exists N, forall n p', psteps nw n p p' -> n <= N) /\ ((forall p', ~ pstep nw p p') -> pool_done p).
Proof.
  intros nw calls p H R. split.
  - exists (prank nw p). intros n p' S. apply (psteps_bound nw calls H) in S; [lia|exact R].
  - intros St. destruct (pool_progress nw calls H p R) as [D|[p' Q]]; [exact D|destruct (St p' Q)].
Qed.
Print Assumptions C56_progress.
(** parallelFor makes such calls: between one job and one per thread (the pool has
    nThreads-1 workers) *)
Theorem C56_parallelFor : forall nT b e cs, (1 <= nT < 2 ^ 31)%Z -> parallelFor_calls nT b e = Some cs -> 1 <= length cs <= S (Z.to_nat (nT - 1)).
Proof.
  intros nT b e cs Hn H. unfold parallelFor_calls in H. destruct (_ || _)%bool; [discriminate|].
  assert (Es : s32 nT = nT) by (unfold s32; rewrite Z.mod_small by lia; destruct (Z.ltb_spec nT (2 ^ 31)); lia). rewrite Es in H.
  assert (L : forall l o k, length (job_calls o k l) = length l) by (induction l; intros; cbn; [reflexivity|rewrite IHl; reflexivity]).
  assert (Lb : forall k l, length (bump k l) = length l) by (induction k; destruct l; cbn; auto).
  unfold divideWork in H. destruct (Z.leb_spec (s32 e - s32 b) 0); [discriminate|]. destruct (Z.leb_spec nT 0); [lia|].
  destruct (Z.leb_spec (s32 e - s32 b) nT); cbn [obind] in H; injection H as <-; rewrite L, ?Lb, repeat_length; lia.
Qed.
Print Assumptions C56_parallelFor.

(** two calls on a pool of two threads: a complete run *)
Fixpoint pplay (nw : nat) (sched : list (option nat)) (p : pst) : option pst :=
  match sched with
  | [] => Some p
  | w :: r => match (match w with Some k => if Nat.ltb k nw then pworker k p else None | None => pclient nw p end) with Some p' => pplay nw r p' | None => None end
  end.
Lemma pplay_reach nw calls sched : forall p p', preach nw calls p -> pplay nw sched p = Some p' -> preach nw calls p'.
Proof.
  induction sched as [|w r IH]; intros p p' R H; cbn [pplay] in H; [injection H as <-; exact R|].
  destruct w as [k|].
  - destruct (Nat.ltb_spec k nw) as [Hk|]; [|discriminate]. destruct (pworker k p) as [p1|] eqn:E; [|discriminate]. apply (IH p1); [|exact H]. apply (preach_step _ _ p); [exact R|]. left. exists k. auto.
  - destruct (pclient nw p) as [p1|] eqn:E; [|discriminate]. apply (IH p1); [|exact H]. apply (preach_step _ _ p); [exact R|]. right. exact E.
Qed.
Definition ex_sched : list (option nat) := repeat None 5 ++ repeat (Some 0) 4 ++ [None] ++ [Some 0] ++ [None] ++ [Some 0; Some 0] ++ repeat None 4 ++ repeat None 2 ++ repeat (Some 0) 3.
Example C56_run : exists p, preach 1 [[1; 2]; [3]] p /\ pool_done p /\ plog p =
  [(Some 0, Submitted 1); (Some 0, Started 1); (None, Started 2); (Some 0, Finished 1); (None, Finished 2); (Some 0, Waited); (None, Started 3); (None, Finished 3)].
Proof.
  destruct (pplay 1 ex_sched (pinit [[1; 2]; [3]])) as [p|] eqn:E; [|vm_compute in E; discriminate]. exists p. split; [exact (pplay_reach _ _ _ _ _ (preach_init _ _) E)|].
  assert (T1 : option_map todo (pplay 1 ex_sched (pinit [[1; 2]; [3]])) = Some []) by (vm_compute; reflexivity).
  assert (T2 : option_map at_ (pplay 1 ex_sched (pinit [[1; 2]; [3]])) = Some Free) by (vm_compute; reflexivity).
  split; [rewrite E in T1, T2; injection T1 as T1; injection T2 as T2; split; assumption|].
  assert (T3 : forall l, option_map plog (pplay 1 ex_sched (pinit [[1; 2]; [3]])) = Some l -> plog p = l) by (intros l; rewrite E; intros H; injection H as H; exact H).
  apply T3. vm_compute. reflexivity.
Qed.
Example C56_hyp : Forall (fun jobs => length jobs <= 2) [[1; 2]; [3]] /\ parallelFor_calls 2 0 10 = Some [(0, 5, 0); (5, 10, 1)]%Z.
Proof. split; [repeat constructor|reflexivity]. Qed.
