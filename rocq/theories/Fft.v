(** Model of c/fft.hpp and c/fft.cpp.
    Elements are those of a ring K (for the field classes: Z/q, see C09-C26);
    f.add, f.sub, f.mul, f.copy are single instructions.  Arrays: 0 is a[], 1
    is roots[], 2 is powTwoInv[].  Parallel loops are relations between the
    memories before and after, see Threads.v. *)
From Coq Require Import ZArith List Bool.
From Verif Require Import Multiexp Tower Par Threads.
Import ListNotations.
Open Scope Z_scope.

(** FFT::log2, lines 10-18; None: failed assertion *)
Fixpoint log2_loop (fuel : nat) (n res : Z) : option Z :=
  if n =? 1 then Some res else
  match fuel with O => None | S k => log2_loop k (Z.shiftr n 1) (w32 (res + 1)) end.
Definition fft_log2 (n : Z) : option Z := if n =? 0 then None else log2_loop 64 n 0.
(** BR, lines 20-27 (64-bit arithmetic) *)
Definition BR (x domainPow : Z) : Z :=
  let x := Z.lor (Z.shiftr x 16) (w64 (Z.shiftl x 16)) in
  let x := Z.lor (Z.shiftr (Z.land x 0xFF00FF00) 8) (w64 (Z.shiftl (Z.land x 0x00FF00FF) 8)) in
  let x := Z.lor (Z.shiftr (Z.land x 0xF0F0F0F0) 4) (w64 (Z.shiftl (Z.land x 0x0F0F0F0F) 4)) in
  let x := Z.lor (Z.shiftr (Z.land x 0xCCCCCCCC) 2) (w64 (Z.shiftl (Z.land x 0x33333333) 2)) in
  Z.shiftr (Z.lor (Z.shiftr (Z.land x 0xAAAAAAAA) 1) (w64 (Z.shiftl (Z.land x 0x55555555) 1))) (32 - domainPow).

Section FFT.
Variable K : rng.
Definition arg2 (f : K -> K -> K) (l : list K) : K := match l with [x; y] => f x y | _ => r0 end.
Definition arg1 (l : list K) : K := match l with [x] => x | _ => r0 end.
Definition Imul d x y : instr K := Ins d [x; y] (arg2 rmul).
Definition Iadd d x y : instr K := Ins d [x; y] (arg2 radd).
Definition Isub d x y : instr K := Ins d [x; y] (arg2 rsub).
Definition Icopy d x : instr K := Ins d [x] arg1.
Notation A i := (Sh 0 i). Notation RT i := (Sh 1 i). Notation PI i := (Sh 2 i).

(** reversePermutation, lines 163-171 *)
Definition rev_body (domainPow th i : Z) : list (instr K) :=
  let r := BR i domainPow in
  if r <? i then [Icopy (Lo th 0) (A i); Icopy (A i) (A r); Icopy (A r) (Lo th 0)] else [].
(** fft, lines 186-195; [S] is the member s, see root() in fft.hpp line 28 *)
Definition fft_body (S s th i : Z) : list (instr K) :=
  let m := Z.shiftl 1 s in let mdiv2 := Z.shiftr m 1 in
  let k := i / mdiv2 * m in let j := i mod mdiv2 in
  [Imul (Lo th 0) (RT (w64 (Z.shiftl j (S - s)))) (A (k + j + mdiv2)); Icopy (Lo th 1) (A (k + j));
   Iadd (A (k + j)) (Lo th 0) (Lo th 1); Isub (A (k + j + mdiv2)) (Lo th 1) (Lo th 0)].
(** lines 181-198: stages s, s+1, ...; s > S is an undefined shift in root() *)
Fixpoint stages (S nT n : Z) (k : nat) (s : Z) (m m' : pmem K) : Prop :=
  match k with
  | O => meq m' m
  | Datatypes.S k => s <= S /\ exists m1, parfor K nT 0 (Z.shiftr n 1) (fft_body S s) m m1 /\ stages S nT n k (s + 1) m1 m'
  end.
Definition fft (S nT n : Z) (m m' : pmem K) : Prop :=
  exists dp m1, fft_log2 n = Some dp /\ parfor K nT 0 n (rev_body dp) m m1 /\ Z.shiftl 1 dp = n /\ stages S nT n (Z.to_nat dp) 1 m1 m'.
(** ifft, lines 202-218 *)
Definition inv_body (n dp th i : Z) : list (instr K) :=
  let r := n - i in
  [Icopy (Lo th 0) (A i); Imul (A i) (A r) (PI dp); Imul (A r) (Lo th 0) (PI dp)].
Definition ifft (S nT n : Z) (m m' : pmem K) : Prop :=
  exists dp m1 m2, fft_log2 n = Some dp /\ fft S nT n m m1 /\ parfor K nT 1 (Z.shiftr n 1) (inv_body n dp) m1 m2 /\
    meq m' (prun [Imul (A 0) (A 0) (PI dp); Imul (A (Z.shiftr n 1)) (A (Z.shiftr n 1)) (PI dp)] m2).
End FFT.
