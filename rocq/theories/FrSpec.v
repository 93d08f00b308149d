(** Specification of tagged field elements: which field value an element of
    the memory denotes, stated on the raw fields only. *)
From Coq Require Import ZArith List Lia.
From Verif Require Import Limbs Gen Raw Spec Fr.
Import ListNotations.
Open Scope Z_scope.

Definition is_int32 (s : Z) : Prop := - 2 ^ 31 <= s < 2 ^ 31.

(** The element with fields (shortVal, type, longVal) is well formed and
    denotes the field value [v]. *)
Definition denotes (q : Z) (n : nat) (s t : Z) (l : list Z) (v : Z) : Prop :=
  0 <= v < q /\ limbs_ok n l /\
  ((t = SHORT /\ is_int32 s /\ v = s mod q) \/
   (t = SHORTMONTGOMERY /\ is_int32 s /\ v = s mod q /\ eval l = (v * Rad n) mod q) \/
   (t = LONG /\ eval l = v) \/
   (t = LONGMONTGOMERY /\ eval l = (v * Rad n) mod q)).

(** Element at pointer [p] denotes [v]. *)
Definition elt (q : Z) (n : nat) (m : mem) (p : ptr) (v : Z) : Prop :=
  denotes q n (ms m p) (mt m p) (ml m p) v.

(** Every longVal is an array of n 64-bit words (the C++ type system). *)
Definition typed (n : nat) (m : mem) : Prop := forall p, limbs_ok n (ml m p).

(** Pointers of the caller; [T 0] .. [T 9] are locals of the library. *)
Definition usr (p : ptr) : Prop := match p with U _ => True | T i => (10 <= i)%nat end.

(** Same element at [p]. *)
Definition same_at (p : ptr) (m m' : mem) : Prop :=
  ms m' p = ms m p /\ mt m' p = mt m p /\ ml m' p = ml m p.

(** Executing the operation made [r] denote [v] and changed no other element
    of the caller. *)
Definition yields (q : Z) (n : nat) (r : ptr) (m m' : mem) (v : Z) : Prop :=
  typed n m' /\ elt q n m' r v /\ forall p, usr p -> p <> r -> same_at p m m'.

(** Signed representative in (-q/2, q/2]: values above floor(q/2) are negative. *)
Definition signed (q v : Z) : Z := if v <=? q / 2 then v else v - q.

(** Bit length of the modulus. *)
Definition bitlen (q : Z) : Z := Z.log2 q + 1.

(** The left and right shift of a canonical representative. *)
Definition shl_val (q x k : Z) : Z := (x * 2 ^ k mod 2 ^ bitlen q) mod q.
Definition shr_val (x k : Z) : Z := x / 2 ^ k.
(** A shift by an amount y close to q is a shift by q - y in the other
    direction; a shift by any other amount gives 0. *)
Definition shift_val (q : Z) (fwd bwd : Z -> Z -> Z) (x y : Z) : Z :=
  if y <? bitlen q then fwd x y else if q - y <? bitlen q then bwd x (q - y) else 0.

(** *** Aliasing conditions under which the in-place forms are right *)
(** In-place use of add is harmless unless the operand that is overwritten is
    the one that has to be converted to Montgomery form. *)
Definition add_alias_ok (r a b : ptr) (m : mem) : Prop :=
  (r = a -> isMont (mt m a) = false -> mt m b <> LONGMONTGOMERY) /\
  (r = b -> isMont (mt m b) = false -> mt m a <> LONGMONTGOMERY).

Definition sub_alias_ok (r a b : ptr) (m : mem) : Prop :=
  add_alias_ok r a b m /\
  (r = b -> mt m b = LONG -> isLong (mt m a) = false -> 0 <= ms m a).

Definition bit_alias1 (r a b : ptr) (m : mem) : Prop :=
  r = a -> mt m a = LONG \/
           (isLong (mt m a) = false /\ 0 <= ms m a /\ (isLong (mt m b) = false -> 0 <= ms m b)).
Definition bit_alias_ok (r a b : ptr) (m : mem) : Prop := bit_alias1 r a b m /\ bit_alias1 r b a m.


(** A left shift by s in place must not move whole words. *)
Definition shl_alias_ok (r a : ptr) (s : Z) (m : mem) : Prop := r = a -> mt m a = LONG -> s < 64.
