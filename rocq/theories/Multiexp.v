(** Model of c/multiexp.cpp and c/multiexp.hpp (ParallelMultiexp).

    Objects (Point and PointAffine) are values of one type E; the curve's
    operations are parameters, used by value: [add] is add(Point, Point, Point),
    [addm] is add(Point, Point, PointAffine), [isz]/[iszm] are isZero on Point
    and PointAffine, [cleared] is a Point filled with zero bytes.

    OpenMP loops: the iterations are executed one at a time in an arbitrary
    order, iteration i by an arbitrary thread; a schedule is the list of
    (iteration, thread number) in order of execution.  (Iterations of different
    threads touch different elements, see PropsRace.v: this is why iterations may be
    taken as atomic.)

    None: an access outside an array, or a shift that C++ leaves undefined. *)
From Coq Require Import ZArith List Bool.
From Verif Require Import Bytes Naf.
Import ListNotations.
Open Scope Z_scope.

Definition w64 (x : Z) : Z := x mod 2 ^ 64.
Definition w32 (x : Z) : Z := x mod 2 ^ 32.
(** conversion to int *)
Definition s32 (x : Z) : Z := let w := x mod 2 ^ 32 in if w <? 2 ^ 31 then w else w - 2 ^ 32.

Definition obind {A B} (x : option A) (f : A -> option B) : option B := match x with Some a => f a | None => None end.
Notation "'do' x <- e ; f" := (obind e (fun x => f)) (at level 200, x name, e at level 100, f at level 200).

(** arrays with bounds *)
Definition aget {E} (l : list E) (i : Z) : option E := if i <? 0 then None else nth_error l (Z.to_nat i).
Fixpoint lput {E} (l : list E) (i : nat) (x : E) : option (list E) :=
  match l, i with
  | [], _ => None
  | _ :: l, O => Some (x :: l)
  | y :: l, S i => match lput l i x with Some l => Some (y :: l) | None => None end
  end.
Definition aput {E} (l : list E) (i : Z) (x : E) : option (list E) := if i <? 0 then None else lput l (Z.to_nat i) x.

(** unaligned 64-bit little-endian load *)
Definition load64 (s : list Z) (o : Z) : option Z :=
  if (o <? 0) || (Z.of_nat (length s) <? o + 8) then None else Some (le_val (firstn 8 (skipn (Z.to_nat o) s))).

(** for (x : l) state = f(x, state) *)
Fixpoint ofold {A S} (f : A -> S -> option S) (l : list A) (s : S) : option S :=
  match l with [] => Some s | x :: l => do s <- f x s; ofold f l s end.
(** a, a+1, ..., a+k-1 *)
Definition zrange (a : Z) (k : nat) : list Z := map (fun i => a + Z.of_nat i) (seq 0 k).

(** getChunk, lines 26-37; 1 << eff is an int shift *)
Definition getChunk (scalars : list Z) (scalarSize bits scalarIdx chunkIdx : Z) : option Z :=
  let bitStart := w64 (chunkIdx * bits) in
  let byteStart := bitStart / 8 in
  let eff := bits in
  let byteStart := if w64 (scalarSize - 8) <? byteStart then w64 (scalarSize - 8) else byteStart in
  let eff := if w64 (scalarSize * 8) <? w64 (bitStart + bits) then w64 (scalarSize * 8 - bitStart) else eff in
  let shift := w64 (bitStart - byteStart * 8) in
  do v <- load64 scalars (w64 (scalarIdx * scalarSize + byteStart));
  if (64 <=? shift) || (31 <=? eff) then None else
  Some (Z.land (Z.shiftr v shift) (Z.shiftl 1 eff - 1)).

Section ME.
Variable E : Type.
Variables (zero cleared : E) (dbl : E -> E) (add addm subm : E -> E -> E) (isz iszm : E -> bool).

(** processChunk, lines 41-56: one iteration of thread tid.  [skip i] is the
    test at the top of the loop of the second version, lines 62-64. *)
Definition pc_iter (skip : Z -> option bool) (bases : list E) (scalars : list Z) (scalarSize bits accsPerChunk chunk : Z) (it : Z * Z) (accs : list E) : option (list E) :=
  let (i, tid) := it in
  do sk <- skip i;
  if sk then Some accs else
  do b <- aget bases i;
  if iszm b then Some accs else
  do v <- getChunk scalars scalarSize bits i chunk;
  if v =? 0 then Some accs else
  let k := w64 (tid * accsPerChunk + v) in
  do a <- aget accs k;
  aput accs k (addm a b).
(** lines 62-64: uint mod, uint len *)
Definition no_skip (i : Z) : option bool := Some false.
Definition nx_skip (nX : Z) (size : list Z) (i : Z) : option bool :=
  if nX =? 0 then None else
  let md := w32 (i mod nX) in
  do sz <- aget size md;
  let len := w32 (sz - 1) in
  Some (w64 (len * nX + md) <? i).

(** packThreads, lines 81-91: iteration i, inner loop over j *)
Definition pt_inner (accsPerChunk i j : Z) (accs : list E) : option (list E) :=
  let k := w64 (j * accsPerChunk + i) in
  do x <- aget accs k;
  if isz x then Some accs else
  do a <- aget accs i;
  do accs <- aput accs i (add a x);
  aput accs k zero.
Definition pt_iter (nThreads accsPerChunk : Z) (i : Z) (accs : list E) : option (list E) :=
  ofold (pt_inner accsPerChunk i) (zrange 1 (Z.to_nat (nThreads - 1))) accs.

(** reduce, lines 94-130 *)
Definition rd_iter (ndiv2 : Z) (it : Z * Z) (st : list E * list E) : option (list E * list E) :=
  let (i, tid) := it in let (accs, sall) := st in
  do x <- aget accs (w64 (ndiv2 + i));
  if isz x then Some (accs, sall) else
  do a <- aget accs i;
  do accs <- aput accs i (add a x);
  do s <- aget sall tid;
  do x <- aget accs (w64 (ndiv2 + i));
  do sall <- aput sall tid (add s x);
  do accs <- aput accs (w64 (ndiv2 + i)) zero;
  Some (accs, sall).
(** lines 119-121 *)
Definition rd_sall (ndiv2 : Z) (sall : list E) (i : Z) (accs : list E) : option (list E) :=
  do a <- aget accs ndiv2; do s <- aget sall i; aput accs ndiv2 (add a s).
Definition rd_dbl (ndiv2 : Z) (_ : Z) (accs : list E) : option (list E) :=
  do a <- aget accs ndiv2; aput accs ndiv2 (dbl a).
(** [sched b]: schedule of the loop for nBits = b *)
Fixpoint reduce (nThreads : Z) (sched : nat -> list (Z * Z)) (nBits : nat) (accs : list E) : option (E * list E) :=
  match nBits with
  | O => None
  | S O => do r <- aget accs 1; do accs <- aput accs 1 zero; Some (r, accs)
  | S nb =>
      let ndiv2 := Z.shiftl 1 (Z.of_nat nb) in
      do st <- ofold (rd_iter ndiv2) (sched nBits) (accs, repeat cleared (Z.to_nat nThreads));
      do accs <- ofold (rd_sall ndiv2 (snd st)) (zrange 0 (Z.to_nat nThreads)) (fst st);
      do pr <- reduce nThreads sched nb accs;
      let p1 := fst pr in
      do accs <- ofold (rd_dbl ndiv2) (zrange 0 nb) (snd pr);
      do a <- aget accs ndiv2;
      let res := add p1 a in
      do accs <- aput accs ndiv2 zero;
      Some (res, accs)
  end.

Record sched := { s_proc : Z -> list (Z * Z); s_pack : Z -> list Z; s_red : Z -> nat -> list (Z * Z) }.

(** lines 166-174 *)
Definition chunk_step (skip : Z -> option bool) (bases : list E) (scalars : list Z) (scalarSize bits accsPerChunk nThreads : Z) (sc : sched)
    (i : Z) (st : list E * list E) : option (list E * list E) :=
  let (accs, results) := st in
  do accs <- ofold (pc_iter skip bases scalars scalarSize bits accsPerChunk i) (s_proc sc i) accs;
  do accs <- ofold (pt_iter nThreads accsPerChunk) (s_pack sc i) accs;
  do r <- reduce nThreads (s_red sc i) (Z.to_nat bits) accs;
  Some (snd r, results ++ [fst r]).
(** lines 178-182: j counts down from nChunks-2 *)
Fixpoint dbls (k : nat) (r : E) : E := match k with O => r | S k => dbls k (dbl r) end.
Fixpoint horner (bits : Z) (results : list E) (k : nat) (r : E) : option E :=
  match k with
  | O => Some r
  | S j => do c <- aget results (Z.of_nat j); horner bits results j (add (dbls (Z.to_nat bits) r) c)
  end.

Definition bits_per_chunk (n : Z) : Z :=
  let b := log2_u32 (w32 (n / 2)) in
  let b := if 16 <? b then 16 else b in
  if b <? 2 then 2 else b.

(** multiexp, lines 133-185 and 188-243; nThreads is the value of line 135 or 138 *)
Definition multiexp_with (skip : Z -> option bool) (bases : list E) (scalars : list Z) (scalarSize n nThreads : Z) (sc : sched) : option E :=
  if n =? 0 then Some zero else
  if n =? 1 then
    do b <- aget bases 0;
    do m <- (if Z.of_nat (length scalars) <? scalarSize then None
             else nafMul zero dbl addm subm 1 0 (firstn (Z.to_nat (w32 scalarSize)) scalars) (fun _ => b));
    Some (m 1%nat)
  else
  let bits := bits_per_chunk n in
  let nChunks := w64 ((w64 (scalarSize * 8 - 1)) / bits + 1) in
  let accsPerChunk := Z.shiftl 1 bits in
  let accs := repeat zero (Z.to_nat (w64 (nThreads * accsPerChunk))) in
  do st <- ofold (chunk_step skip bases scalars scalarSize bits accsPerChunk nThreads sc) (zrange 0 (Z.to_nat nChunks)) (accs, []);
  let results := snd st in
  do r <- aget results (nChunks - 1);
  horner bits results (Z.to_nat (s32 (nChunks - 2) + 1)) r.
Definition multiexp := multiexp_with no_skip.
Definition multiexp_nx (nX : Z) (size : list Z) := multiexp_with (nx_skip nX size).
End ME.
