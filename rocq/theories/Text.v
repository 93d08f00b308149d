(** Texts of numbers: contracts of GMP's mpz_get_str and mpz_set_str and of
    sprintf "%d" for non-negative values.  A text is the list of its character
    codes, without the terminating zero. *)
From Coq Require Import ZArith List Lia Bool.
Import ListNotations.
Open Scope Z_scope.

(** Bases 2..36: digits 0-9, then lower-case letters on output; letters of
    either case on input. *)
Definition digit_char (d : Z) : Z := if d <? 10 then 48 + d else 87 + d.
Definition digit_of (c : Z) : Z :=
  if (48 <=? c) && (c <=? 57) then c - 48
  else if (97 <=? c) && (c <=? 122) then c - 87
  else if (65 <=? c) && (c <=? 90) then c - 55
  else 99.
Definition is_digit (base c : Z) : bool := digit_of c <? base.

Fixpoint digits_rev (fuel : nat) (base v : Z) : list Z :=
  match fuel with
  | O => []
  | S k => if v <? base then [digit_char v] else digit_char (v mod base) :: digits_rev k base (v / base)
  end.
(** mpz_get_str(0, base, v) for v >= 0 *)
Definition mpz_get_str (base v : Z) : list Z :=
  rev (digits_rev (S (Z.to_nat (Z.log2 v))) base v).

(** Positional value of a digit string. *)
Definition horner (base : Z) (s : list Z) : Z := fold_left (fun acc c => acc * base + digit_of c) s 0.

Definition is_space (c : Z) : bool := (c =? 32) || ((9 <=? c) && (c <=? 13)).
(** mpz_set_str(s, base): white space is ignored, an optional minus sign, then
    at least one digit.  [None]: not a number (the call returns -1, which the
    library does not check). *)
Definition mpz_set_str (base : Z) (s : list Z) : option Z :=
  let s := filter (fun c => negb (is_space c)) s in
  let '(neg, ds) := match s with c :: t => if c =? 45 then (true, t) else (false, s) | [] => (false, []) end in
  match ds with
  | [] => None
  | _ => if forallb (is_digit base) ds then Some (if neg then - horner base ds else horner base ds) else None
  end.

(** Specification: [s] is the numeral of [v] in [base], without superfluous
    leading zeros. *)
Definition numeral (base : Z) (s : list Z) (v : Z) : Prop :=
  s <> [] /\ Forall (fun c => exists d, 0 <= d < base /\ c = digit_char d) s /\
  horner base s = v /\ (length s = 1%nat \/ hd 0 s <> 48).
