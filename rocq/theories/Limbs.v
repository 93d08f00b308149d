(** Little-endian limb arrays in base 2^64 and the contracts of the GMP
    low-level functions that src/fr_raw_generic.cpp.ejs calls.

    GMP is an external library (not in /repo): each [mpn_*] below is the
    documented contract of the function of the same name, written as a total
    function on limb lists.  Pointers never occur here; aliasing is handled in
    Raw.v where the lists are read from / written to memory. *)
From Coq Require Import ZArith List Lia Bool.
Import ListNotations.
Open Scope Z_scope.

(** Limb base: uint64_t. *)
Definition B : Z := 18446744073709551616.

(** Integer denoted by a limb array. *)
Fixpoint eval (l : list Z) : Z :=
  match l with
  | [] => 0
  | x :: t => x + B * eval t
  end.

(** The [n] low limbs of an integer (two's complement for negative ones). *)
Fixpoint to_limbs (n : nat) (z : Z) : list Z :=
  match n with
  | O => []
  | S k => z mod B :: to_limbs k (z / B)
  end.

(** An array of exactly [n] 64-bit words. *)
Definition limbs_ok (n : nat) (l : list Z) : Prop :=
  length l = n /\ Forall (fun x => 0 <= x < B) l.

(** {rp,n} = {ap,n} + {bp,n}; returns the carry. *)
Definition mpn_add_n (n : nat) (a b : list Z) : list Z * Z :=
  let s := eval a + eval b in (to_limbs n s, s / B ^ Z.of_nat n).

(** {rp,n} = {ap,n} - {bp,n}; returns the borrow. *)
Definition mpn_sub_n (n : nat) (a b : list Z) : list Z * Z :=
  let s := eval a - eval b in (to_limbs n s, if s <? 0 then 1 else 0).

(** {rp,n} = {ap,n} + w. *)
Definition mpn_add_1 (n : nat) (a : list Z) (w : Z) : list Z * Z :=
  let s := eval a + w in (to_limbs n s, s / B ^ Z.of_nat n).

(** {rp,n} = {ap,n} - w. *)
Definition mpn_sub_1 (n : nat) (a : list Z) (w : Z) : list Z * Z :=
  let s := eval a - w in (to_limbs n s, if s <? 0 then 1 else 0).

(** {rp,n} = {ap,n} * w; returns the most significant limb. *)
Definition mpn_mul_1 (n : nat) (a : list Z) (w : Z) : list Z * Z :=
  let s := eval a * w in (to_limbs n s, s / B ^ Z.of_nat n).

(** {rp,n} += {ap,n} * w; returns the carry limb. *)
Definition mpn_addmul_1 (n : nat) (r a : list Z) (w : Z) : list Z * Z :=
  let s := eval r + eval a * w in (to_limbs n s, s / B ^ Z.of_nat n).

(** {rp,an} = {ap,an} + {bp,bn}, an >= bn; returns the carry. *)
Definition mpn_add (an : nat) (a b : list Z) : list Z * Z :=
  let s := eval a + eval b in (to_limbs an s, s / B ^ Z.of_nat an).

(** Three-way comparison: negative, zero, positive. *)
Definition mpn_cmp (a b : list Z) : Z :=
  match eval a ?= eval b with Lt => -1 | Eq => 0 | Gt => 1 end.

Definition mpn_zero_p (a : list Z) : bool := eval a =? 0.

(** Limb-wise logical operations. *)
Fixpoint map2 (f : Z -> Z -> Z) (a b : list Z) : list Z :=
  match a, b with
  | x :: a', y :: b' => f x y :: map2 f a' b'
  | _, _ => []
  end.
Definition mpn_and_n (a b : list Z) : list Z := map2 Z.land a b.
Definition mpn_ior_n (a b : list Z) : list Z := map2 Z.lor a b.
Definition mpn_xor_n (a b : list Z) : list Z := map2 Z.lxor a b.
Definition mpn_com (a : list Z) : list Z := map (fun x => B - 1 - x) a.

(** Shifts by 1 <= s <= 63 bits. *)
Definition mpn_lshift (n : nat) (a : list Z) (s : Z) : list Z :=
  to_limbs n (eval a * 2 ^ s).
Definition mpn_rshift (n : nat) (a : list Z) (s : Z) : list Z :=
  to_limbs n (eval a / 2 ^ s).

(** Array element access. *)
Definition get (l : list Z) (i : nat) : Z := nth i l 0.
Fixpoint set (l : list Z) (i : nat) (v : Z) : list Z :=
  match l, i with
  | [], _ => []
  | _ :: t, O => v :: t
  | x :: t, S k => x :: set t k v
  end.
