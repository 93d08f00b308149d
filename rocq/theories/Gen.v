(** The code generator: constants emitted for a modulus.
    Source: src/buildzqfield.js (class ZqBuilder, lines 13-44),
    src/fr_raw_generic.cpp.ejs lines 5-9, src/fr_generic.cpp.ejs lines 6-11. *)
From Coq Require Import ZArith List Lia Bool.
From Verif Require Import Limbs.
Import ListNotations.
Open Scope Z_scope.

(** big-integer [bitLength] of a positive number. *)
Definition bitLength (q : Z) : Z := Z.log2 q + 1.

(** buildzqfield.js:17  n64 = floor((bitLength-1)/64)+1 *)
Definition gen_n64 (q : Z) : nat := Z.to_nat ((bitLength q - 1) / 64 + 1).

(** buildzqfield.js:18  q >> ((n64-1)*64) <= ((2^64-1)>>1)-1 *)
Definition gen_opt (q : Z) : bool :=
  Z.shiftr q ((Z.of_nat (gen_n64 q) - 1) * 64) <=? Z.shiftr (2 ^ 64 - 1) 1 - 1.

(** Extended Euclid loop of big-integer's [modInv] (external JS package, its
    algorithm as published); also used as the contract of GMP's mpz_invert.
    [fuel] bounds the iterations; Gen facts show it is never exhausted.
    Simplification: the final "if t<0 then t+n" is written [t mod n]. *)
Fixpoint egcd_loop (fuel : nat) (t newt r newr : Z) : Z * Z :=
  match fuel with
  | O => (t, r)
  | S k => if newr =? 0 then (t, r)
           else let d := r / newr in
                egcd_loop k newt (t - d * newt) newr (r - d * newr)
  end.

(** [None]: the argument is not invertible (big-integer throws, mpz_invert returns 0). *)
Definition modInv (a n : Z) : option Z :=
  let fuel := Z.to_nat (2 * Z.log2 n + 4) in
  let '(t, r) := egcd_loop fuel 0 1 n (a mod n) in
  if r =? 1 then Some (t mod n) else None.

(** All the constants of one generated field. *)
Record zq := mkzq {
  p_n64  : nat;        (* N64 *)
  p_opt  : bool;       (* canOptimizeConsensys *)
  p_q    : list Z;     (* Fr_q.longVal, n64 limbs *)
  p_rawq : list Z;     (* Fr_rawq, n64+1 limbs, the last is 0 *)
  p_R2   : list Z;     (* 2^(128*n64) mod q *)
  p_R3   : list Z;     (* 2^(192*n64) mod q *)
  p_half : list Z;     (* q >> 1 *)
  p_np   : Z;          (* 2^64 - q^-1 mod 2^64 *)
  p_lbo  : Z;          (* lboMask *)
  p_bits : Z           (* q.bitLength() *)
}.

(** buildzqfield.js:32-42 constantElement: n64 limbs of a value. *)
Definition constantElement (q v : Z) : list Z := to_limbs (gen_n64 q) v.

(** [i] is q^-1 mod 2^64 *)
Definition build_with (q i : Z) : zq :=
  let n := gen_n64 q in
  {| p_n64 := n;
     p_opt := gen_opt q;
     p_q := constantElement q q;
     p_rawq := constantElement q q ++ [0];
     p_R2 := constantElement q (Z.shiftl 1 (Z.of_nat n * 64 * 2) mod q);
     p_R3 := constantElement q (Z.shiftl 1 (Z.of_nat n * 64 * 3) mod q);
     p_half := constantElement q (Z.shiftr q 1);
     p_np := 2 ^ 64 - i;
     p_lbo := Z.shiftr (2 ^ 64) (Z.of_nat n * 64 - bitLength q) - 1;
     p_bits := bitLength q |}.

(** [None]: the generator throws (q not invertible modulo 2^64). *)
Definition build (q : Z) : option zq :=
  match modInv q (2 ^ 64) with
  | None => None
  | Some i => Some (build_with q i)
  end.
