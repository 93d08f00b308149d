(** Model of c/msm.hpp and c/msm.cpp (MSM).  Conventions as in Multiexp.v: E is
    the type of objects, [add]/[addm]/[subm] are add(Point, Point, Point),
    add(Point, Point, PointAffine), sub(Point, Point, PointAffine).  The two
    calls of ThreadPool::parallelFor run their iterations in an arbitrary order
    on arbitrary threads (what parallelFor does is modelled in Threads.v).
    [junkZ], [junkE]: contents of freshly allocated arrays.
    None: access outside an array, undefined shift, or failed assertion. *)
From Coq Require Import ZArith List Bool.
From Verif Require Import Bytes Naf Multiexp.
Import ListNotations.
Open Scope Z_scope.

(** msm.hpp lines 37-39, 17-20, 22-35, 41-43 *)
Definition calcChunkCount (scalarSize bits : Z) : Z := w64 (w64 (w64 (scalarSize * 8) - 1) / bits + 1).
Definition calcAddsCount (nPoints scalarSize bits : Z) : Z :=
  w64 (calcChunkCount scalarSize bits * w64 (nPoints + Z.shiftl 1 bits + bits + 1)).
Definition cb_step (n scalarSize : Z) (st : Z * Z) (k : Z) : Z * Z :=
  let (bits, minAdds) := st in let cur := calcAddsCount n scalarSize k in
  if cur <? minAdds then (k, cur) else (bits, minAdds).
Definition calcBitsPerChunk (n scalarSize : Z) : Z :=
  fst (fold_left (cb_step n scalarSize) (zrange 4 13) (3, calcAddsCount n scalarSize 3)).
Definition calcBucketCount (bits : Z) : Z := Z.shiftl 1 (bits - 1).
(** msm.hpp lines 45-60 *)
Definition getBucketIndex (scalars : list Z) (scalarSize bits scalarIdx chunkIdx : Z) : option Z :=
  let bitStart := w64 (chunkIdx * bits) in
  let byteStart := bitStart / 8 in
  let eff := bits in
  let byteStart := if w64 (scalarSize - 8) <? byteStart then w64 (scalarSize - 8) else byteStart in
  let eff := if w64 (scalarSize * 8) <? w64 (bitStart + bits) then w64 (scalarSize * 8 - bitStart) else eff in
  let shift := w64 (bitStart - byteStart * 8) in
  do v <- load64 scalars (w64 (scalarIdx * scalarSize + byteStart));
  if (64 <=? shift) || (64 <=? eff) then None else
  Some (Z.land (Z.shiftr v shift) (w64 (Z.shiftl 1 eff - 1))).

Section MSM.
Variable E : Type.
Variables (zero : E) (dbl : E -> E) (add addm subm : E -> E -> E).

(** msm.cpp lines 47-62: one scalar; int arithmetic, the comparison is done in uint64 *)
Definition slice_step (scalars : list Z) (scalarSize bits nChunks nBuckets i : Z) (j : Z) (st : Z * list Z) : option (Z * list Z) :=
  let (carry, sliced) := st in
  do v <- getBucketIndex scalars scalarSize bits i j;
  let idx := s32 (v + carry) in
  if nBuckets <=? w64 idx then
    do sliced <- aput sliced (w64 (i * nChunks + j)) (s32 (idx - nBuckets * 2)); Some (1, sliced)
  else
    do sliced <- aput sliced (w64 (i * nChunks + j)) idx; Some (0, sliced).
Definition slice_iter (scalars : list Z) (scalarSize bits nChunks nBuckets : Z) (i : Z) (sliced : list Z) : option (list Z) :=
  do st <- ofold (slice_step scalars scalarSize bits nChunks nBuckets i) (zrange 0 (Z.to_nat nChunks)) (0, sliced);
  Some (snd st).
(** lines 71-73 *)
Definition clear_step (base i : Z) (bm : list E) : option (list E) := aput bm (base + i) zero.
(** lines 75-84 *)
Definition point_step (bases : list E) (sliced : list Z) (nChunks j base : Z) (i : Z) (bm : list E) : option (list E) :=
  do idx <- aget sliced (w64 (i * nChunks + j));
  if 0 <? idx then
    do a <- aget bm (base + (idx - 1)); do p <- aget bases i; aput bm (base + (idx - 1)) (addm a p)
  else if idx <? 0 then
    do a <- aget bm (base + (- idx - 1)); do p <- aget bases i; aput bm (base + (- idx - 1)) (subm a p)
  else Some bm.
(** lines 86-94: i counts down from nBuckets-2 *)
Fixpoint sum_loop (bm : list E) (base : Z) (k : nat) (t tmp : E) : option E :=
  match k with
  | O => Some t
  | S i => do b <- aget bm (base + Z.of_nat i); let tmp := add tmp b in sum_loop bm base i (add t tmp) tmp
  end.
(** lines 67-97: chunk j on thread th *)
Definition chunk_iter (bases : list E) (sliced : list Z) (nChunks nBuckets nPoints : Z) (it : Z * Z) (st : list E * list E) : option (list E * list E) :=
  let (j, th) := it in let (bm, chunks) := st in
  let base := w64 (th * nBuckets) in
  do bm <- ofold (clear_step base) (zrange 0 (Z.to_nat nBuckets)) bm;
  do bm <- ofold (point_step bases sliced nChunks j base) (zrange 0 (Z.to_nat nPoints)) bm;
  do t <- aget bm (base + (nBuckets - 1));
  do t <- sum_loop bm base (Z.to_nat (s32 (nBuckets - 2) + 1)) t t;
  do chunks <- aput chunks j t;
  Some (bm, chunks).

Definition alloc {T} (junk : nat -> T) (size : Z) : list T := map junk (seq 0 (Z.to_nat size)).

(** run; bits is the value of line 22 or 24, sched1 and sched2 the orders of
    execution of the two parallel loops *)
Definition run_with (bits : Z) (junkZ : nat -> Z) (junkE : nat -> E) (bases : list E) (scalars : list Z) (scalarSize nPoints nThreads : Z)
    (sched1 : list Z) (sched2 : list (Z * Z)) : option E :=
  if nPoints =? 0 then Some zero else
  if nPoints =? 1 then
    do b <- aget bases 0;
    do m <- (if Z.of_nat (length scalars) <? scalarSize then None
             else nafMul zero dbl addm subm 1 0 (firstn (Z.to_nat (w32 scalarSize)) scalars) (fun _ => b));
    Some (m 1%nat)
  else
  let nChunks := calcChunkCount scalarSize bits in
  let nBuckets := calcBucketCount bits in
  let bm := alloc junkE (w64 (nThreads * nBuckets)) in
  let chunks := alloc junkE nChunks in
  let sliced := alloc junkZ (w64 (nChunks * nPoints)) in
  if (s32 nPoints <=? 0) || (s32 nChunks <=? 0) then None else
  do sliced <- ofold (slice_iter scalars scalarSize bits nChunks nBuckets) sched1 sliced;
  do st <- ofold (chunk_iter bases sliced nChunks nBuckets nPoints) sched2 (bm, chunks);
  let chunks := snd st in
  do r <- aget chunks (nChunks - 1);
  horner E dbl add bits chunks (Z.to_nat (s32 (nChunks - 2) + 1)) r.
Definition run (junkZ : nat -> Z) (junkE : nat -> E) (bases : list E) (scalars : list Z) (scalarSize nPoints nThreads : Z) :=
  run_with (calcBitsPerChunk nPoints scalarSize) junkZ junkE bases scalars scalarSize nPoints nThreads.
End MSM.
