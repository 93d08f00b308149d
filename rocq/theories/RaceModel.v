(** The parallel loops of c/multiexp.cpp and c/msm.cpp as instruction lists of
    Par.v: one field-element group operation, copy or store is one instruction.
    Multiexp.v and Msm.v take one iteration as one step; PropsRace.v shows that
    the finer executions give the same arrays.

    Array 0 is accs, bucketMatrix or slicedScalars; array 1 is sall or chunks;
    the locals of a thread are [Lo].  The input arrays are only read and are
    parameters.  An instruction under a test of an element that others could
    write (isZero) is modelled as one that always writes, the old value if the
    test fails: this can only add conflicts. *)
From Coq Require Import ZArith List Bool.
From Verif Require Import Bytes Naf Multiexp Msm Par.
Import ListNotations.
Open Scope Z_scope.

(** [ts]: the threads, each with its number and its iterations in order *)
Definition thread := (Z * list Z)%type.
Definition thread_code {V} (body : Z -> Z -> list (instr V)) (t : thread) : list (instr V) := flat_map (body (fst t)) (snd t).
(** the iterations, thread after thread *)
Definition one_by_one (ts : list thread) : list (Z * Z) := flat_map (fun t => map (fun i => (i, fst t)) (snd t)) ts.
(** array [arr] has the contents [l] *)
Definition holds {V} (arr : nat) (l : list V) (m : pmem V) : Prop := forall k x, aget l k = Some x -> m (Sh arr k) = x.

Section ME.
Variable E : Type.
Variables (zero : E) (add addm subm : E -> E -> E) (isz iszm : E -> bool).
Notation arg l i := (nth i l zero).
(** multiexp.cpp lines 41-56, 59-77 *)
Definition pc_code (skip : Z -> option bool) (bases : list E) (scalars : list Z) (scalarSize bits accsPerChunk chunk tid i : Z) : list (instr E) :=
  match skip i, aget bases i, getChunk scalars scalarSize bits i chunk with
  | Some false, Some b, Some v =>
    if iszm b then [] else if v =? 0 then [] else
    let k := w64 (tid * accsPerChunk + v) in [Ins (Sh 0 k) [Sh 0 k] (fun l => addm (arg l 0) b)]
  | _, _, _ => []
  end.
(** lines 81-91 *)
Definition pt_code (nThreads accsPerChunk tid i : Z) : list (instr E) :=
  flat_map (fun j => let k := w64 (j * accsPerChunk + i) in
    [Ins (Sh 0 i) [Sh 0 i; Sh 0 k] (fun l => if isz (arg l 1) then arg l 0 else add (arg l 0) (arg l 1));
     Ins (Sh 0 k) [Sh 0 k] (fun l => if isz (arg l 0) then arg l 0 else zero)]) (zrange 1 (Z.to_nat (nThreads - 1))).
(** lines 106-118, two stores and a copy *)
Definition rd_code (ndiv2 tid i : Z) : list (instr E) :=
  let k := w64 (ndiv2 + i) in
  [Ins (Sh 0 i) [Sh 0 i; Sh 0 k] (fun l => if isz (arg l 1) then arg l 0 else add (arg l 0) (arg l 1));
   Ins (Sh 1 tid) [Sh 1 tid; Sh 0 k] (fun l => if isz (arg l 1) then arg l 0 else add (arg l 0) (arg l 1));
   Ins (Sh 0 k) [Sh 0 k] (fun l => if isz (arg l 0) then arg l 0 else zero)].

(** msm.cpp lines 47-62; local 0 is carry *)
Definition slice_code (scalars : list Z) (scalarSize bits nChunks nBuckets tid i : Z) : list (instr Z) :=
  Ins (Lo tid 0) [] (fun _ => 0) ::
  flat_map (fun j => match getBucketIndex scalars scalarSize bits i j with
    | Some v =>
      [Ins (Sh 0 (w64 (i * nChunks + j))) [Lo tid 0%nat] (fun l => let idx := s32 (v + nth 0 l 0) in if nBuckets <=? w64 idx then s32 (idx - nBuckets * 2) else idx);
       Ins (Lo tid 0) [Lo tid 0%nat] (fun l => if nBuckets <=? w64 (s32 (v + nth 0 l 0)) then 1 else 0)]
    | None => [] end) (zrange 0 (Z.to_nat nChunks)).
(** msm.cpp lines 67-97; local 0 is t, local 1 is tmp *)
Definition point_code (bases : list E) (sliced : list Z) (nChunks j base i : Z) : list (instr E) :=
  match aget sliced (w64 (i * nChunks + j)), aget bases i with
  | Some idx, Some p =>
    if 0 <? idx then [Ins (Sh 0 (base + (idx - 1))) [Sh 0 (base + (idx - 1))] (fun l => addm (arg l 0) p)]
    else if idx <? 0 then [Ins (Sh 0 (base + (- idx - 1))) [Sh 0 (base + (- idx - 1))] (fun l => subm (arg l 0) p)]
    else []
  | _, _ => []
  end.
Fixpoint sum_code (th base : Z) (k : nat) : list (instr E) :=
  match k with
  | O => []
  | S i => Ins (Lo th 1) [Lo th 1%nat; Sh 0 (base + Z.of_nat i)] (fun l => add (arg l 0) (arg l 1)) ::
           Ins (Lo th 0) [Lo th 0%nat; Lo th 1%nat] (fun l => add (arg l 0) (arg l 1)) :: sum_code th base i
  end.
Definition chunk_code (bases : list E) (sliced : list Z) (nChunks nBuckets nPoints th j : Z) : list (instr E) :=
  let base := w64 (th * nBuckets) in
  map (fun i => Ins (Sh 0 (base + i)) [] (fun _ => zero)) (zrange 0 (Z.to_nat nBuckets)) ++
  flat_map (point_code bases sliced nChunks j base) (zrange 0 (Z.to_nat nPoints)) ++
  [Ins (Lo th 0) [Sh 0 (base + (nBuckets - 1))] (fun l => arg l 0); Ins (Lo th 1) [Lo th 0%nat] (fun l => arg l 0)] ++
  sum_code th base (Z.to_nat (s32 (nBuckets - 2) + 1)) ++
  [Ins (Sh 1 j) [Lo th 0%nat] (fun l => arg l 0)].
End ME.
