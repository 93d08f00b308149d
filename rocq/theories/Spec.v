(** Specification vocabulary for the raw layer, independent of the model of
    the operations: what it means for an array to hold a field element. *)
From Coq Require Import ZArith List Lia.
From Verif Require Import Limbs Gen Raw.
Import ListNotations.
Open Scope Z_scope.

(** Array [p] of the memory holds the canonical limbs of [v], 0 <= v < q. *)
Definition holds (q : Z) (n : nat) (m : rmem) (p : ptr) (v : Z) : Prop :=
  limbs_ok n (m p) /\ eval (m p) = v /\ 0 <= v < q.

(** Nothing but array [r] changed. *)
Definition only (r : ptr) (m m' : rmem) : Prop := forall p, p <> r -> m' p = m p.

(** The Montgomery radix. *)
Definition Rad (n : nat) : Z := 2 ^ (64 * Z.of_nat n).
