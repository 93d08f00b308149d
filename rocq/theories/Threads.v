(** Model of ThreadPool::divideWork, parallelFor and parallelBlock (c/misc.hpp). *)
From Coq Require Import ZArith List Bool.
From Verif Require Import Multiexp Par.
Import ListNotations.
Open Scope Z_scope.

(** lines 126-144; int arguments.  None: failed assertion. *)
Fixpoint bump (k : nat) (jobs : list Z) : list Z :=
  match k, jobs with
  | S k, j :: jobs => j + 1 :: bump k jobs
  | _, _ => jobs
  end.
Definition divideWork (elementCount threadCount : Z) : option (list Z) :=
  if elementCount <=? 0 then None else
  if threadCount <=? 0 then None else
  if elementCount <=? threadCount then Some (repeat 1 (Z.to_nat elementCount)) else
  let jobSize := elementCount / threadCount in
  let elementRest := elementCount mod threadCount in
  Some (bump (Z.to_nat elementRest) (repeat jobSize (Z.to_nat threadCount))).
(** lines 147-163: the calls func(jobBegin, jobBegin + jobs[k], k); the last one
    is made by the calling thread *)
Fixpoint job_calls (jobBegin k : Z) (jobs : list Z) : list (Z * Z * Z) :=
  match jobs with
  | [] => []
  | j :: jobs => (jobBegin, jobBegin + j, k) :: job_calls (jobBegin + j) (k + 1) jobs
  end.
(** begin and end are converted to int by the callers; end - begin overflows
    (None) if it does not fit *)
Definition parallelFor_calls (nThreads b e : Z) : option (list (Z * Z * Z)) :=
  let b := s32 b in let e := s32 e in
  if (2 ^ 31 <=? e - b) || (e - b <? - 2 ^ 31) then None else
  do jobs <- divideWork (e - b) (s32 nThreads);
  Some (job_calls b 0 jobs).
(** lines 166-178: the calls func(k, nThreads) *)
Definition parallelBlock_calls (nThreads : Z) : list (Z * Z) := map (fun k => (k, nThreads)) (zrange 0 (Z.to_nat nThreads)).

(** an execution of a parallel loop: body th i is the code of iteration i on
    thread th; the threads are interleaved instruction by instruction *)
Section Exec.
Variable V : Type.
Definition job_code (body : Z -> Z -> list (instr V)) (c : Z * Z * Z) : list (instr V) :=
  let '(b, e, k) := c in flat_map (body k) (zrange b (Z.to_nat (e - b))).
Definition parfor (nThreads b e : Z) (body : Z -> Z -> list (instr V)) (m m' : pmem V) : Prop :=
  exists calls l, parallelFor_calls nThreads b e = Some calls /\ inter (map (job_code body) calls) l /\ meq m' (prun l m).
Definition parblock (nThreads : Z) (code : Z -> Z -> list (instr V)) (m m' : pmem V) : Prop :=
  exists l, inter (map (fun c => code (fst c) (snd c)) (parallelBlock_calls nThreads)) l /\ meq m' (prun l m).
End Exec.
