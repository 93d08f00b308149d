(** Byte strings (uint8_t arrays) and the integers they encode. *)
From Coq Require Import ZArith List Lia Bool.
Import ListNotations.
Open Scope Z_scope.

Definition bytes_ok (l : list Z) : Prop := Forall (fun x => 0 <= x < 256) l.

(** Little-endian and big-endian values. *)
Fixpoint le_val (l : list Z) : Z :=
  match l with [] => 0 | x :: t => x + 256 * le_val t end.
Definition be_val (l : list Z) : Z := le_val (rev l).

(** The [k] low bytes of an integer. *)
Fixpoint le_bytes (k : nat) (v : Z) : list Z :=
  match k with O => [] | S k => v mod 256 :: le_bytes k (v / 256) end.
Definition be_bytes (k : nat) (v : Z) : list Z := rev (le_bytes k v).

(** #define BIT_IS_SET(s, p) (s[p>>3] & (1 << (p & 0x7)))
    (src/fr.cpp.ejs line 258, c/exp2.hpp, c/f12field.cpp) *)
Definition bit_is_set (s : list Z) (p : nat) : bool :=
  negb (Z.land (nth (p / 8) s 0) (Z.shiftl 1 (Z.of_nat p mod 8)) =? 0).
