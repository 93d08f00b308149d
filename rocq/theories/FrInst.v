(** Decidable form of [denotes] and concrete memories for examples and
    counterexamples. *)
From Coq Require Import ZArith List Lia Bool.
From Verif Require Import Limbs LimbsFacts Gen Raw Spec Instances Fr FrSpec.
Import ListNotations.
Open Scope Z_scope.

Lemma limbs_okb_iff n l : limbs_okb n l = true <-> limbs_ok n l.
Proof.
  split; [apply limbs_okb_ok|]. intros [H1 H2]. unfold limbs_okb.
  rewrite andb_true_iff, Nat.eqb_eq, forallb_forall. split; [exact H1|].
  intros x Hx. rewrite Forall_forall in H2. specialize (H2 x Hx). rewrite andb_true_iff, Z.leb_le, Z.ltb_lt. exact H2.
Qed.

Definition is_int32b (s : Z) : bool := (- 2 ^ 31 <=? s) && (s <? 2 ^ 31).
Lemma is_int32b_iff s : is_int32b s = true <-> is_int32 s.
Proof. unfold is_int32b, is_int32. rewrite andb_true_iff, Z.leb_le, Z.ltb_lt. tauto. Qed.

Definition denotesb (q : Z) (n : nat) (s t : Z) (l : list Z) (v : Z) : bool :=
  (0 <=? v) && (v <? q) && limbs_okb n l &&
  ((t =? SHORT) && is_int32b s && (v =? s mod q) ||
   (t =? SHORTMONTGOMERY) && is_int32b s && (v =? s mod q) && (eval l =? (v * Rad n) mod q) ||
   (t =? LONG) && (eval l =? v) ||
   (t =? LONGMONTGOMERY) && (eval l =? (v * Rad n) mod q)).
Lemma denotesb_iff q n s t l v : denotesb q n s t l v = true <-> denotes q n s t l v.
Proof.
  unfold denotesb, denotes. rewrite !andb_true_iff, !orb_true_iff, !andb_true_iff.
  rewrite Z.leb_le, Z.ltb_lt, !Z.eqb_eq, limbs_okb_iff, is_int32b_iff. tauto.
Qed.
Definition eltb (q : Z) (n : nat) (m : mem) (p : ptr) (v : Z) : bool :=
  denotesb q n (ms m p) (mt m p) (ml m p) v.
Lemma eltb_true q n m p v : eltb q n m p v = true -> elt q n m p v.
Proof. apply denotesb_iff. Qed.
Lemma eltb_false q n m p v : eltb q n m p v = false -> ~ elt q n m p v.
Proof. intros H1 H2. apply denotesb_iff in H2. unfold eltb in H1. congruence. Qed.

(** A memory from the list of the caller's elements (shortVal, type, value of
    longVal); stack temporaries hold garbage. *)
Definition mem3 (n : nat) (l : list (Z * Z * Z)) : mem :=
  mkmem (fun p => match p with U i => fst (fst (nth i l (0, 0, 0))) | T i => 123456 end)
        (fun p => match p with U i => snd (fst (nth i l (0, 0, 0))) | T i => LONGMONTGOMERY end)
        (fun p => match p with U i => to_limbs n (snd (nth i l (0, 0, 0))) | T i => to_limbs n (77 * Z.of_nat i) end).
Lemma mem3_typed n l : typed n (mem3 n l).
Proof. intros [i|i]; apply to_limbs_ok. Qed.

(** The element fields of value v in each representation. *)
Definition eS (s : Z) : Z * Z * Z := (s, SHORT, 2 ^ 70 + 12345).
Definition eSM (q : Z) (n : nat) (s : Z) : Z * Z * Z := (s, SHORTMONTGOMERY, (s * Rad n) mod q).
Definition eL (v : Z) : Z * Z * Z := (99, LONG, v).
Definition eLM (q : Z) (n : nat) (v : Z) : Z * Z * Z := (98, LONGMONTGOMERY, (v * Rad n) mod q).
