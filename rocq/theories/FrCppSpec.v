(** Which field value a RawFr element denotes. *)
From Coq Require Import ZArith List.
From Verif Require Import Limbs Gen Raw Spec.
Open Scope Z_scope.

(** The raw array at [p] is the canonical Montgomery form of [x]. *)
Definition rval (q : Z) (n : nat) (m : rmem) (p : ptr) (x : Z) : Prop :=
  0 <= x < q /\ holds q n m p ((x * Rad n) mod q).
