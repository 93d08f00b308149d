(** Model of class ThreadWorker (c/misc.hpp lines 43-98): one worker thread and
    one client thread as a transition system.

    A step is one access to the shared state (mutex, task, stop, condition
    variables).  Blocking on a condition variable releases the mutex atomically;
    notify_one wakes the waiter if there is one and is lost otherwise; waiters
    may also wake up spuriously.  A task is a number; running it takes two steps
    (start, end), and tasks neither throw nor use the worker themselves. *)
From Coq Require Import List Bool Arith.
Import ListNotations.

Inductive op := Submit (t : nat) | Wait | Destroy.
Inductive event := Submitted (t : nat) | Started (t : nat) | Finished (t : nat) | Waited.
Inductive who := Wk | Cl.

(** worker(), lines 53-72 *)
Inductive wpc :=
| WLock      (* about to lock (line 57) *)
| WCheck     (* lock held, about to evaluate the predicate (line 59) *)
| WBlock     (* predicate false, about to release the lock and block *)
| WWait      (* blocked *)
| WWoken     (* woken up, about to lock again *)
| WGo        (* predicate true, about to test stop (line 61) *)
| WExit      (* about to release the lock and return (line 62) *)
| WEnd       (* returned *)
| WRun       (* about to call the task (line 65) *)
| WRan       (* the task is running, about to end; then task = nullptr (line 66) *)
| WUnlock    (* about to release the lock (line 67) *)
| WNotify.   (* about to call finished.notify_one (line 68) *)
(** the public member functions, lines 79-97 *)
Inductive cpc :=
| CIdle
| CSubLock (t : nat) | CSubSet (t : nat) | CSubUnlock | CSubNotify     (* lines 87-92 *)
| CWLock | CWCheck | CWBlock | CWWait | CWWoken | CWUnlock             (* lines 94-97 *)
| CDStop | CDNotify | CDJoin | CDone.                                  (* lines 79-84 *)

Record st := { stop : bool; task : option nat; own : option who; wp : wpc; cp : cpc; ops : list op; log : list event }.
Definition init (prog : list op) : st := {| stop := false; task := None; own := None; wp := WLock; cp := CIdle; ops := prog; log := [] |}.

Definition set_w (s : st) o p : st := {| stop := stop s; task := task s; own := o; wp := p; cp := cp s; ops := ops s; log := log s |}.
Definition set_c (s : st) o p : st := {| stop := stop s; task := task s; own := o; wp := wp s; cp := p; ops := ops s; log := log s |}.
Definition notify_w (p : wpc) : wpc := match p with WWait => WWoken | p => p end.
Definition notify_c (p : cpc) : cpc := match p with CWWait => CWWoken | p => p end.

Definition wstep (s : st) : option st :=
  match wp s with
  | WLock | WWoken => match own s with None => Some (set_w s (Some Wk) WCheck) | Some _ => None end
  | WCheck => Some (set_w s (own s) (match task s with Some _ => WGo | None => if stop s then WGo else WBlock end))
  | WBlock => Some (set_w s None WWait)
  | WWait => None
  | WGo => Some (set_w s (own s) (if stop s then WExit else WRun))
  | WExit => Some (set_w s None WEnd)
  | WEnd => None
  | WRun => match task s with
            | Some t => Some {| stop := stop s; task := task s; own := own s; wp := WRan; cp := cp s; ops := ops s; log := log s ++ [Started t] |}
            | None => None     (* calling an empty function throws *)
            end
  | WRan => match task s with
            | Some t => Some {| stop := stop s; task := None; own := own s; wp := WUnlock; cp := cp s; ops := ops s; log := log s ++ [Finished t] |}
            | None => None
            end
  | WUnlock => Some (set_w s None WNotify)
  | WNotify => Some {| stop := stop s; task := task s; own := own s; wp := WLock; cp := notify_c (cp s); ops := ops s; log := log s |}
  end.
Definition cstep (s : st) : option st :=
  match cp s with
  | CIdle => match ops s with
             | [] => None
             | o :: r => Some {| stop := stop s; task := task s; own := own s; wp := wp s;
                                 cp := match o with Submit t => CSubLock t | Wait => CWLock | Destroy => CDStop end; ops := r; log := log s |}
             end
  | CSubLock t => match own s with None => Some (set_c s (Some Cl) (CSubSet t)) | Some _ => None end
  | CSubSet t => Some {| stop := stop s; task := Some t; own := own s; wp := wp s; cp := CSubUnlock; ops := ops s; log := log s ++ [Submitted t] |}
  | CSubUnlock => Some (set_c s None CSubNotify)
  | CSubNotify => Some {| stop := stop s; task := task s; own := own s; wp := notify_w (wp s); cp := CIdle; ops := ops s; log := log s |}
  | CWLock | CWWoken => match own s with None => Some (set_c s (Some Cl) CWCheck) | Some _ => None end
  | CWCheck => Some (set_c s (own s) (match task s with None => CWUnlock | Some _ => CWBlock end))
  | CWBlock => Some (set_c s None CWWait)
  | CWWait => None
  | CWUnlock => Some {| stop := stop s; task := task s; own := None; wp := wp s; cp := CIdle; ops := ops s; log := log s ++ [Waited] |}
  | CDStop => Some {| stop := true; task := task s; own := own s; wp := wp s; cp := CDNotify; ops := ops s; log := log s |}
  | CDNotify => Some {| stop := stop s; task := task s; own := own s; wp := notify_w (wp s); cp := CDJoin; ops := ops s; log := log s |}
  | CDJoin => match wp s with WEnd => Some (set_c s (own s) CDone) | _ => None end
  | CDone => None
  end.
(** steps of the program, and spurious wake-ups *)
Definition step (s s' : st) : Prop := wstep s = Some s' \/ cstep s = Some s'.
Definition spurious (s s' : st) : Prop :=
  (wp s = WWait /\ s' = set_w s (own s) WWoken) \/ (cp s = CWWait /\ s' = set_c s (own s) CWWoken).
Inductive reach (prog : list op) : st -> Prop :=
| reach_init : reach prog (init prog)
| reach_step : forall s s', reach prog s -> step s s' -> reach prog s'
| reach_spurious : forall s s', reach prog s -> spurious s s' -> reach prog s'.
(** n steps of the program *)
Inductive steps : nat -> st -> st -> Prop :=
| steps_0 : forall s, steps 0 s s
| steps_S : forall n s s1 s', step s s1 -> steps n s1 s' -> steps (S n) s s'.

(** ** Specification *)
(** programs that wait for every task before submitting the next one, and do
    nothing after the destructor; [pending]: a task has not been waited for *)
Fixpoint alternates (pending : bool) (p : list op) : Prop :=
  match p with
  | [] => pending = false
  | Submit _ :: p => pending = false /\ alternates true p
  | Wait :: p => alternates false p
  | Destroy :: p => pending = false /\ p = []
  end.
(** the one order of events *)
Definition expected (p : list op) : list event :=
  flat_map (fun o => match o with Submit t => [Submitted t; Started t; Finished t] | Wait => [Waited] | Destroy => [] end) p.
Definition client_done (s : st) : Prop := (cp s = CIdle /\ ops s = []) \/ cp s = CDone.
