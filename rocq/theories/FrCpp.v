(** Model of src/fr.cpp.ejs and of the inline wrappers of src/fr.hpp.ejs.

    GMP integers are Z; GMP functions are modelled by their documented
    contracts.  [None]: undefined or aborting behaviour (division by zero,
    inverse of a non-invertible value, export beyond the end of the array,
    text that is not a number). *)
From Coq Require Import ZArith List Lia Bool Zpow_facts.
From Verif Require Import Limbs Gen Raw Fr Bytes Text.
Import ListNotations.
Open Scope Z_scope.

(** mpz_export(arr, NULL, -1, 8, -1, 0, v): writes as many 64-bit words of |v|
    as needed, least significant first, over the array [old]. *)
Definition mpz_export (n : nat) (v : Z) (old : list Z) : option (list Z) :=
  let a := Z.abs v in
  let cnt := if a =? 0 then 0%nat else Z.to_nat (Z.log2 a / 64 + 1) in
  if (n <? cnt)%nat then None else Some (to_limbs cnt a ++ skipn cnt old).

(** mpz_fits_sint_p *)
Definition fits_sint (v : Z) : bool := (- 2 ^ 31 <=? v) && (v <? 2 ^ 31).

Section WithParams.
Variable P : zq.
Let n := p_n64 P.
(** Fr_init, lines 42-54: the mpz q; nBits and mask are never used *)
Let q := eval (p_q P).

(** lines 17-28; [T 9] is the local [tmp], dead on return *)
Definition Fr_toMpz (a : ptr) (m : mem) : Z :=
  let m1 := Fr_toNormal P (T 9) a m in
  if negb (isLong (mt m1 (T 9)))
  then let s := ms m1 (T 9) in if s <? 0 then s + q else s
  else eval (ml m1 (T 9)).

(** lines 30-39 *)
Definition Fr_fromMpz (r : ptr) (v : Z) (m : mem) : option mem :=
  if fits_sint v then Some (setS r v (setT r SHORT m))
  else match mpz_export n v (repeat 0 n) with
       | Some l => Some (onL (fun x => upd x r l) (setT r LONG m))
       | None => None
       end.

(** lines 56-62 *)
Definition Fr_str2element (r : ptr) (s : list Z) (m : mem) : option mem :=
  match mpz_set_str 10 s with
  | Some v => Fr_fromMpz r (v mod q) m
  | None => None
  end.

(** lines 64-84 *)
Definition Fr_element2str (a : ptr) (m : mem) : list Z :=
  if negb (isLong (mt m a)) then
    if 0 <=? ms m a then mpz_get_str 10 (ms m a)    (* sprintf("%d") *)
    else mpz_get_str 10 (ms m a + q)
  else mpz_get_str 10 (eval (ml (Fr_toNormal P (T 9) a m) (T 9))).

(** lines 86-108: mpz_fdiv_q *)
Definition Fr_idiv (r a b : ptr) (m : mem) : option mem :=
  let ma := Fr_toMpz a m in let mb := Fr_toMpz b m in
  if mb =? 0 then None else Fr_fromMpz r (ma / mb) m.

(** lines 110-126: mpz_fdiv_r *)
Definition Fr_mod (r a b : ptr) (m : mem) : option mem :=
  let ma := Fr_toMpz a m in let mb := Fr_toMpz b m in
  if mb =? 0 then None else Fr_fromMpz r (ma mod mb) m.

(** lines 128-144: mpz_powm; the exponent is never negative here.  [Zpow_mod]
    is the stdlib's square-and-multiply. *)
Definition Fr_pow (r a b : ptr) (m : mem) : option mem :=
  let ma := Fr_toMpz a m in let mb := Fr_toMpz b m in
  Fr_fromMpz r (Zpow_mod ma mb q) m.

(** lines 146-157; mpz_invert leaves mr undefined when there is no inverse *)
Definition Fr_inv (r a : ptr) (m : mem) : option mem :=
  match modInv (Fr_toMpz a m) q with
  | Some i => Fr_fromMpz r i m
  | None => None
  end.

(** lines 159-163; [T 8] is the local [tmp] *)
Definition Fr_div (r a b : ptr) (m : mem) : option mem :=
  match Fr_inv (T 8) b m with
  | Some m1 => Some (Fr_mul P r a (T 8) m1)
  | None => None
  end.

(** *** class RawFr: elements are raw arrays in Montgomery form *)
(** fr.hpp.ejs, inline wrappers *)
Definition Raw_copy (r a : ptr) (m : rmem) : rmem := rawCopy r a m.
Definition Raw_add (r a b : ptr) (m : rmem) : rmem := rawAdd P r a b m.
Definition Raw_sub (r a b : ptr) (m : rmem) : rmem := rawSub P r a b m.
Definition Raw_mul (r a b : ptr) (m : rmem) : rmem := rawMMul P r a b m.
Definition Raw_neg (r a : ptr) (m : rmem) : rmem := rawNeg P r a m.
Definition Raw_square (r a : ptr) (m : rmem) : rmem := rawMSquare P r a m.
Definition Raw_eq (a b : ptr) (m : rmem) : Z := rawIsEq a b m.
Definition Raw_isZero (a : ptr) (m : rmem) : Z := rawIsZero a m.

(** "for (...) r.v[i] = 0; mpz_export(r.v, ..., v); rawToMontgomery(r.v, r.v)":
    lines 286-290, and the tails of fromString, fromUI and set *)
Definition Raw_fromMpz (r : ptr) (v : Z) (m : rmem) : option rmem :=
  match mpz_export n v (repeat 0 n) with
  | Some l => Some (rawToMontgomery P r r (upd m r l))
  | None => None
  end.
(** lines 183-191 *)
Definition Raw_fromString (r : ptr) (s : list Z) (radix : Z) (m : rmem) : option rmem :=
  match mpz_set_str radix s with
  | Some v => Raw_fromMpz r (v mod q) m
  | None => None
  end.
(** lines 193-201, v an unsigned long *)
Definition Raw_fromUI (r : ptr) (v : Z) (m : rmem) : option rmem := Raw_fromMpz r v m.
(** lines 209-223, value an int; the first mpz_export of line 217 is redone on
    a cleared array *)
Definition Raw_set (r : ptr) (value : Z) (m : rmem) : option rmem :=
  let v := if value <? 0 then value + q else value in
  match mpz_export n v (m r) with
  | Some l => Raw_fromMpz r v (upd m r l)
  | None => None
  end.
(** lines 280-284 *)
Definition Raw_toMpz (a : ptr) (m : rmem) : Z := eval (fromMont P (m a)).
(** lines 225-236 *)
Definition Raw_toString (a : ptr) (radix : Z) (m : rmem) : list Z := mpz_get_str radix (Raw_toMpz a m).
(** lines 238-250; a.v is read before r.v is cleared *)
Definition Raw_inv (r a : ptr) (m : rmem) : option rmem :=
  match modInv (eval (m a)) q with
  | Some i => match mpz_export n i (repeat 0 n) with
              | Some l => Some (rawMMul_c P r r (p_R3 P) (upd m r l))
              | None => None
              end
  | None => None
  end.
(** lines 252-256; [T 0] is the local [tmp] *)
Definition Raw_div (r a b : ptr) (m : rmem) : option rmem :=
  match Raw_inv (T 0) b m with
  | Some m1 => Some (Raw_mul r a (T 0) m1)
  | None => None
  end.

(** lines 173-178: the member fOne = set(1) *)
Definition fOne : list Z := mmul P (to_limbs n 1) (p_R2 P).

(** lines 258-278; [T 0] is the local copyBase, [i] the number of bits left *)
Fixpoint exp_loop (r : ptr) (scalar : list Z) (i : nat) (oneFound : bool) (m : rmem) : bool * rmem :=
  match i with
  | O => (oneFound, m)
  | S k =>
      if negb oneFound then
        if negb (bit_is_set scalar k) then exp_loop r scalar k false m
        else exp_loop r scalar k true (Raw_copy r (T 0) m)
      else
        let m1 := Raw_square r r m in
        exp_loop r scalar k true (if bit_is_set scalar k then Raw_mul r r (T 0) m1 else m1)
  end.
(** int i = scalarSize*8-1, computed in 32-bit unsigned arithmetic and
    converted to int: the number of iterations *)
Definition exp_iters (size : Z) : nat :=
  Z.to_nat (to_int32 ((size * 8 - 1) mod 2 ^ 32) + 1).
Definition Raw_exp (r base : ptr) (scalar : list Z) (m : rmem) : rmem :=
  let m0 := Raw_copy (T 0) base m in
  let '(oneFound, m1) := exp_loop r scalar (exp_iters (Z.of_nat (length scalar))) false m0 in
  if negb oneFound then upd m1 r fOne else m1.

(** lines 292-306.  mpz_export(data, NULL, 1, bytes, 1, 0, v) writes one
    big-endian word of [bytes] bytes (the value always fits since bytes >=
    8*N64), and nothing at all when v is zero.  Returns the return value and
    the new buffer. *)
Definition Raw_toRprBE (a : ptr) (data : list Z) (bytes : Z) (m : rmem) : Z * list Z :=
  if bytes <? Z.of_nat n * 8 then (- (Z.of_nat n * 8), data)
  else let v := Raw_toMpz a m in
       let k := Z.to_nat bytes in
       (Z.of_nat n * 8, if v =? 0 then data else be_bytes k v ++ skipn k data).

(** lines 308-319.  mpz_import(r, N64*8, 0, 1, 0, 0, data): order 0 is not
    documented; GMP treats it as 1 (most significant first). *)
Definition Raw_fromRprBE (r : ptr) (data : list Z) (bytes : Z) (m : rmem) : option (Z * rmem) :=
  if bytes <? Z.of_nat n * 8 then Some (- (Z.of_nat n * 8), m)
  else match Raw_fromMpz r (be_val (firstn (n * 8) data)) m with
       | Some m1 => Some (Z.of_nat n * 8, m1)
       | None => None
       end.

End WithParams.
