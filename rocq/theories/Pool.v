(** Model of class ThreadPool (c/misc.hpp lines 100-181) running on its workers:
    the nThreads-1 objects of class ThreadWorker of Worker.v and the one thread
    that calls parallelFor or parallelBlock, interleaved step by step.

    A job (a call of func) is a number.  As in Worker.v, jobs do not throw and do
    not use the pool themselves.  What the jobs of one call are is modelled in
    Threads.v ([parallelFor_calls], [parallelBlock_calls]). *)
From Coq Require Import List Bool Arith.
From Verif Require Import Worker.
Import ListNotations.

(** what the calling thread does: a member function of worker k, or running a job itself *)
Inductive pop := On (k : nat) (o : op) | Own (t : nat).
(** parallelFor lines 153-162 and parallelBlock lines 168-177: all jobs but the
    last one are given to workers 0, 1, ...; the caller runs the last one, then
    waits for the workers in order *)
Definition call_ops (jobs : list nat) : list pop :=
  map (fun kt => On (fst kt) (Submit (snd kt))) (combine (seq 0 (length jobs - 1)) (removelast jobs)) ++
  [Own (last jobs 0)] ++
  map (fun k => On k Wait) (seq 0 (length jobs - 1)).

(** where the calling thread is: between two operations, inside a member function
    of worker k, or running a job *)
Inductive place := Free | At (k : nat) | Busy (t : nat).
(** [plog]: the events, with the worker they belong to (None: jobs run by the caller) *)
Record pst := { pw : nat -> st; todo : list pop; at_ : place; plog : list (option nat * event) }.
Definition pinit (calls : list (list nat)) : pst :=
  {| pw := fun _ => init []; todo := flat_map call_ops calls; at_ := Free; plog := [] |}.
Definition wput (f : nat -> st) (k : nat) (s : st) : nat -> st := fun j => if Nat.eqb j k then s else f j.
(** events that worker k has added to its log *)
Definition new_events (k : nat) (s s' : st) : list (option nat * event) := map (fun e => (Some k, e)) (skipn (length (log s)) (log s')).
(** entering a member function *)
Definition enter (o : op) (s : st) : st :=
  set_c s (own s) (match o with Submit t => CSubLock t | Wait => CWLock | Destroy => CDStop end).
Definition leave (k : nat) (s : st) : place := match cp s with CIdle => Free | _ => At k end.

Definition pworker (k : nat) (p : pst) : option pst :=
  match wstep (pw p k) with
  | Some s => Some {| pw := wput (pw p) k s; todo := todo p; at_ := at_ p; plog := plog p ++ new_events k (pw p k) s |}
  | None => None
  end.
(** [nw]: number of workers; using another one is an access outside the vector: no step *)
Definition pclient (nw : nat) (p : pst) : option pst :=
  match at_ p with
  | Free =>
    match todo p with
    | [] => None
    | Own t :: r => Some {| pw := pw p; todo := r; at_ := Busy t; plog := plog p ++ [(None, Started t)] |}
    | On k o :: r => if Nat.ltb k nw then Some {| pw := wput (pw p) k (enter o (pw p k)); todo := r; at_ := At k; plog := plog p |} else None
    end
  | Busy t => Some {| pw := pw p; todo := todo p; at_ := Free; plog := plog p ++ [(None, Finished t)] |}
  | At k =>
    match cstep (pw p k) with
    | Some s => Some {| pw := wput (pw p) k s; todo := todo p; at_ := leave k s; plog := plog p ++ new_events k (pw p k) s |}
    | None => None
    end
  end.
Definition pstep (nw : nat) (p p' : pst) : Prop := (exists k, k < nw /\ pworker k p = Some p') \/ pclient nw p = Some p'.
Definition pspurious (nw : nat) (p p' : pst) : Prop :=
  exists k s, k < nw /\ spurious (pw p k) s /\ p' = {| pw := wput (pw p) k s; todo := todo p; at_ := at_ p; plog := plog p |}.
Inductive preach (nw : nat) (calls : list (list nat)) : pst -> Prop :=
| preach_init : preach nw calls (pinit calls)
| preach_step : forall p p', preach nw calls p -> pstep nw p p' -> preach nw calls p'
| preach_spurious : forall p p', preach nw calls p -> pspurious nw p p' -> preach nw calls p'.
Inductive psteps (nw : nat) : nat -> pst -> pst -> Prop :=
| psteps_0 : forall p, psteps nw 0 p p
| psteps_S : forall n p p1 p', pstep nw p p1 -> psteps nw n p1 p' -> psteps nw (S n) p p'.

(** ** Specification *)
(** the events of one worker, or of the caller's own jobs *)
Definition who_eqb (a b : option nat) : bool := match a, b with None, None => true | Some i, Some j => Nat.eqb i j | _, _ => false end.
Definition of (w : option nat) (l : list (option nat * event)) : list event := map snd (filter (fun x => who_eqb (fst x) w) l).
(** what happens during one call with the given jobs: job k is submitted to worker
    k, run there once from start to end, and waited for; the last job is run once
    by the caller; nothing else happens *)
Definition call_events (jobs : list nat) (seg : list (option nat * event)) : Prop :=
  of None seg = [Started (last jobs 0); Finished (last jobs 0)] /\
  forall k, of (Some k) seg = match nth_error (removelast jobs) k with Some t => [Submitted t; Started t; Finished t; Waited] | None => [] end.
Definition pool_done (p : pst) : Prop := todo p = [] /\ at_ p = Free.
