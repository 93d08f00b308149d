(** Model of c/naf.cpp, c/exp.hpp and log2 of c/misc.cpp. *)
From Coq Require Import ZArith List Bool.
Import ListNotations.
Open Scope Z_scope.

(** naf.cpp lines 10-42: one turn of the inner loop.  State (last, carry),
    result (last, carry, res[i]). *)
Definition naf_step (last carry cur : bool) : bool * bool * Z :=
  if last then
    if cur then if carry then (false, true, 1) else (false, true, 2)
    else if carry then (false, true, 2) else (false, false, 1)
  else
    if cur then if carry then (false, true, 0) else (true, false, 0)
    else if carry then (true, false, 0) else (false, false, 0).

Fixpoint naf_entry_loop (k : nat) (i inp : Z) (last carry : bool) (res : list Z) : bool * bool * list Z :=
  match k with
  | O => (last, carry, res)
  | S k => let cur := negb (Z.land inp (Z.shiftl 1 (i + 1)) =? 0) in
           let '(last, carry, d) := naf_step last carry cur in
           naf_entry_loop k (i + 1) inp last carry (res ++ [d])
  end.

(** little-endian 64-bit word from 8 bytes (line 44) *)
Fixpoint word8 (l : list Z) : Z := match l with [] => 0 | b :: l => b + 256 * word8 l end.
Fixpoint unword8 (k : nat) (w : Z) : list Z := match k with O => [] | S k => w mod 256 :: unword8 k (w / 256) end.

(** lines 6-49: NAFTable[inp] *)
Definition naf_entry (inp : Z) : Z :=
  let carry := negb (Z.land inp 512 =? 0) in
  let last := negb (Z.land inp 1 =? 0) in
  let '(last, carry, res) := naf_entry_loop 8 0 inp last carry [] in
  let r64 := word8 res in
  let r64 := if carry then Z.lor r64 4 else r64 in
  if last then Z.lor r64 8 else r64.

(** lines 55-74.  [i] runs from 0 to scalarSize + 1; each turn writes 8 bytes of
    the result.  (scalarSize = 0 reads scalar[0] out of bounds: None.) *)
Definition byte (s : list Z) (i : nat) : Z := nth i s 0.
Fixpoint buildNaf_loop (k i : nat) (s : list Z) (last carry : bool) : list Z :=
  match k with
  | O => []
  | S k =>
      let st := if last then 1 else 0 in
      let st := if (i <? length s)%nat then st + Z.land (byte s i) 254 else st in
      let st := if (i <? length s - 1)%nat then st + Z.shiftl (Z.land (byte s (i + 1)) 1) 8 else st in
      let st := if carry then st + 512 else st in
      let rs := naf_entry st in
      let carry := negb (Z.land rs 4 =? 0) in
      let last := negb (Z.land rs 8 =? 0) in
      unword8 8 (Z.land rs 0x0303030303030303) ++ buildNaf_loop k (i + 1) s last carry
  end.
Definition buildNaf (s : list Z) : option (list Z) :=
  match s with
  | [] => None
  | b :: _ => Some (buildNaf_loop (length s + 2) 0 s (negb (Z.land b 1 =? 0)) false)
  end.

(** exp.hpp lines 7-28: nafMulByScalar over any group interface: [E] is the type
    of the objects in memory, [dbl], [add], [sub] and [zero] the operations of
    the group class.  The base is copied first; after that only [r] is touched. *)
Section NafMul.
Variable E : Type.
Variables (zero : E) (dbl : E -> E) (add sub : E -> E -> E).
Definition gmem := nat -> E.
Definition gset (m : gmem) (r : nat) (e : E) : gmem := fun p => if Nat.eqb p r then e else m p.

(** line 16; the counter is i + 1 *)
Fixpoint skip_zeros (naf : list Z) (k : nat) : nat :=
  match k with O => O | S i => if nth i naf 0 =? 0 then skip_zeros naf i else k end.
(** lines 17-25 *)
Fixpoint naf_run (naf : list Z) (k : nat) (r : nat) (base : E) (m : gmem) : gmem :=
  match k with
  | O => m
  | S i =>
      let m := gset m r (dbl (m r)) in
      let d := nth i naf 0 in
      let m := if d =? 1 then gset m r (add (m r) base)
               else if d =? 2 then gset m r (sub (m r) base) else m in
      naf_run naf i r base m
  end.
(** line 9: scalarSize is unsigned int, nBits is int *)
Definition nbits (n : Z) : Z := let w := (n * 8 + 2) mod 2 ^ 32 in if w <? 2 ^ 31 then w else w - 2 ^ 32.
(** None: buffer of line 10 too small because its size wrapped, or empty scalar *)
Definition nafMul (r base : nat) (s : list Z) (m : gmem) : option gmem :=
  let n := Z.of_nat (length s) in
  if 2 ^ 32 <=? (n + 2) * 8 then None else
  match buildNaf s with
  | None => None
  | Some naf =>
      let baseCopy := m base in
      let m := gset m r zero in
      Some (naf_run naf (skip_zeros naf (Z.to_nat (nbits n))) r baseCopy m)
  end.
End NafMul.
Arguments gset {E}. Arguments naf_run {E}. Arguments nafMul {E}.

(** misc.cpp lines 3-17 *)
Definition tab32 : list Z :=
  [0; 9; 1; 10; 13; 21; 2; 29; 11; 14; 16; 18; 22; 25; 3; 30;
   8; 12; 20; 28; 15; 17; 24; 7; 19; 27; 23; 6; 26; 5; 4; 31].
Definition log2_u32 (value : Z) : Z :=
  let value := Z.lor value (Z.shiftr value 1) in
  let value := Z.lor value (Z.shiftr value 2) in
  let value := Z.lor value (Z.shiftr value 4) in
  let value := Z.lor value (Z.shiftr value 8) in
  let value := Z.lor value (Z.shiftr value 16) in
  nth (Z.to_nat (Z.shiftr ((value * 0x07C4ACDD) mod 2 ^ 32) 27)) tab32 0.
