(** Model of c/f2field.cpp, c/f6field.cpp, c/f12field.cpp.

    The base field is any commutative ring with a (partial) inverse; elements
    live in cells, an F2 element has the two cells a, b, an F6 element three F2
    elements x, y, z, an F12 element two F6 elements x, y.  Operations take
    locations, so destination and operands may coincide.  Locals are the
    locations R (T1 _), R (T2 _), R (T3 _) of the three classes. *)
From Coq Require Import ZArith List Bool Ring_theory.
From Verif Require Import Bytes.
Import ListNotations.

Record rng := {
  rcar :> Type;
  r0 : rcar; r1 : rcar;
  radd : rcar -> rcar -> rcar; rmul : rcar -> rcar -> rcar; rsub : rcar -> rcar -> rcar; ropp : rcar -> rcar;
  rinv : rcar -> rcar;
  reqb : rcar -> rcar -> bool;
  r_th : ring_theory r0 r1 radd rmul rsub ropp eq;
  reqb_ok : forall x y, reqb x y = true <-> x = y
}.
Arguments r0 {_}. Arguments r1 {_}. Arguments radd {_}. Arguments rmul {_}. Arguments rsub {_}. Arguments ropp {_}.
Arguments rinv {_}. Arguments reqb {_}.
Definition is_field (K : rng) : Prop := (r1 : K) <> r0 /\ forall x : K, x <> r0 -> rmul x (rinv x) = r1.

Inductive obj := User (n : nat) | T1 (n : nat) | T2 (n : nat) | T3 (n : nat).
Inductive loc := R (o : obj) | C (c : nat) (l : loc).
Definition objeqb (o o' : obj) : bool :=
  match o, o' with
  | User n, User n' | T1 n, T1 n' | T2 n, T2 n' | T3 n, T3 n' => Nat.eqb n n'
  | _, _ => false
  end.
Fixpoint leqb (l l' : loc) : bool :=
  match l, l' with
  | R o, R o' => objeqb o o'
  | C c l, C c' l' => Nat.eqb c c' && leqb l l'
  | _, _ => false
  end.

Section Model.
Variable K : rng.
Definition mem := loc -> K.
Definition upd (m : mem) (r : loc) (v : K) : mem := fun p => if leqb p r then v else m p.

(** base field class *)
Definition F_copy r a (m : mem) : mem := upd m r (m a).
Definition F_zero r (m : mem) : mem := upd m r r0.
Definition F_add r a b (m : mem) : mem := upd m r (radd (m a) (m b)).
Definition F_sub r a b (m : mem) : mem := upd m r (rsub (m a) (m b)).
Definition F_mul r a b (m : mem) : mem := upd m r (rmul (m a) (m b)).
Definition F_neg r a (m : mem) : mem := upd m r (ropp (m a)).
Definition F_square r a (m : mem) : mem := upd m r (rmul (m a) (m a)).
Definition F_inv r a (m : mem) : mem := upd m r (rinv (m a)).
Notation "m |> f" := (f m) (at level 50, left associativity, only parsing).

(** ** F2Field *)
Section F2.
Variable nr : K.
Notation fa p := (C 0 p). Notation fb p := (C 1 p).
Notation tmp i := (R (T1 i)).

Inductive typeOfNr := nr_is_zero | nr_is_one | nr_is_negone | nr_is_long.
(** f2field.cpp lines 30-38 *)
Definition nr_type : typeOfNr :=
  if reqb nr r0 then nr_is_zero else if reqb nr r1 then nr_is_one
  else if reqb nr (ropp r1) then nr_is_negone else nr_is_long.
(** lines 60-67 *)
Definition mulByNr r a (m : mem) : mem :=
  match nr_type with
  | nr_is_zero => F_zero r m
  | nr_is_one => F_copy r a m
  | nr_is_negone => F_neg r a m
  | nr_is_long => upd m r (rmul nr (m a))
  end.
(** lines 69-97, 141-145 *)
Definition F2_add r a b (m : mem) := m |> F_add (fa r) (fa a) (fa b) |> F_add (fb r) (fb a) (fb b).
Definition F2_sub r a b (m : mem) := m |> F_sub (fa r) (fa a) (fa b) |> F_sub (fb r) (fb a) (fb b).
Definition F2_neg r a (m : mem) := m |> F_neg (fa r) (fa a) |> F_neg (fb r) (fb a).
Definition F2_conjugate r a (m : mem) := m |> F_copy (fa r) (fa a) |> F_neg (fb r) (fb a).
Definition F2_copy r a (m : mem) := m |> F_copy (fa r) (fa a) |> F_copy (fb r) (fb a).
Definition F2_dbl r a (m : mem) := m |> F_add (fa r) (fa a) (fa a) |> F_add (fb r) (fb a) (fb a).
(** lines 99-118; aa bb bbr sum1 sum2 = locals 0..4 *)
Definition F2_mul r e1 e2 (m : mem) := m
  |> F_mul (tmp 0) (fa e1) (fa e2) |> F_mul (tmp 1) (fb e1) (fb e2)
  |> mulByNr (tmp 2) (tmp 1)
  |> F_add (tmp 3) (fa e1) (fb e1) |> F_add (tmp 4) (fa e2) (fb e2)
  |> F_add (fa r) (tmp 0) (tmp 2)
  |> F_mul (fb r) (tmp 3) (tmp 4) |> F_sub (fb r) (fb r) (tmp 0) |> F_sub (fb r) (fb r) (tmp 1).
(** lines 120-124; b is a base field cell *)
Definition F2_mulScalar r a b (m : mem) := m |> F_mul (fa r) (fa a) b |> F_mul (fb r) (fb a) b.
(** lines 126-139; t = local 9 *)
Definition F2_mulXi r a (m : mem) := let t := tmp 9 in m
  |> F2_dbl t a |> F2_dbl t t |> F2_dbl t t |> F2_add t t a
  |> F_add (fb t) (fb t) (fa a) |> F_sub (fa t) (fa t) (fb a) |> F2_copy r t.
(** lines 147-175; ab tmp1 tmp2 = locals 0..2 *)
Definition F2_square r e1 (m : mem) :=
  match nr_type with
  | nr_is_negone => m
      |> F_mul (tmp 0) (fa e1) (fb e1) |> F_add (tmp 1) (fa e1) (fb e1) |> F_sub (tmp 2) (fa e1) (fb e1)
      |> F_mul (fa r) (tmp 1) (tmp 2) |> F_add (fb r) (tmp 0) (tmp 0)
  | _ => m
      |> F_mul (tmp 0) (fa e1) (fb e1) |> F_add (tmp 1) (fa e1) (fb e1)
      |> mulByNr (tmp 2) (fb e1) |> F_add (tmp 2) (fa e1) (tmp 1)
      |> F_mul (tmp 1) (tmp 1) (tmp 2)
      |> mulByNr (tmp 2) (tmp 0) |> F_add (tmp 2) (tmp 0) (tmp 2)
      |> F_sub (fa r) (tmp 1) (tmp 2) |> F_add (fb r) (tmp 0) (tmp 0)
  end.
(** lines 177-188; t0..t3 = locals 0..3 *)
Definition F2_inv r e1 (m : mem) := m
  |> F_square (tmp 0) (fa e1) |> F_square (tmp 1) (fb e1) |> mulByNr (tmp 2) (tmp 1)
  |> F_sub (tmp 2) (tmp 0) (tmp 2) |> F_inv (tmp 3) (tmp 2)
  |> F_mul (fa r) (fa e1) (tmp 3) |> F_mul (fb r) (fb e1) (tmp 3) |> F_neg (fb r) (fb r).
(** lines 190-195; tmp = local 8 (used across the calls of inv and mul, which use 0..4) *)
Definition F2_div r e1 e2 (m : mem) := m |> F2_inv (tmp 8) e2 |> F2_mul r e1 (tmp 8).
(** lines 197-210 *)
Definition F2_isZero a (m : mem) : bool := reqb (m (fa a)) r0 && reqb (m (fb a)) r0.
Definition F2_isOne a (m : mem) : bool := reqb (m (fa a)) r1 && reqb (m (fb a)) r0.
Definition F2_eq a b (m : mem) : bool := reqb (m (fa a)) (m (fa b)) && reqb (m (fb a)) (m (fb b)).

End F2.

(** ** F6Field: built over F2Field("-1") (f6field.cpp line 7) *)
Definition neg1 : K := ropp r1.
Notation fx p := (C 0 p). Notation fy p := (C 1 p). Notation fz p := (C 2 p).
Notation tm i := (R (T2 i)).
Notation F2mul := (F2_mul neg1). Notation F2square := (F2_square neg1). Notation F2inv := (F2_inv neg1).

(** lines 60-86, 185-190 *)
Definition F6_add r a b (m : mem) := m |> F2_add (fx r) (fx a) (fx b) |> F2_add (fy r) (fy a) (fy b) |> F2_add (fz r) (fz a) (fz b).
Definition F6_sub r a b (m : mem) := m |> F2_sub (fx r) (fx a) (fx b) |> F2_sub (fy r) (fy a) (fy b) |> F2_sub (fz r) (fz a) (fz b).
Definition F6_neg r a (m : mem) := m |> F2_neg (fx r) (fx a) |> F2_neg (fy r) (fy a) |> F2_neg (fz r) (fz a).
Definition F6_copy r a (m : mem) := m |> F2_copy (fx r) (fx a) |> F2_copy (fy r) (fy a) |> F2_copy (fz r) (fz a).
Definition F6_dbl r a (m : mem) := m |> F2_dbl (fx r) (fx a) |> F2_dbl (fy r) (fy a) |> F2_dbl (fz r) (fz a).
(** lines 88-124; v0 v1 v2 t0 t1 tz ty tx = locals 0..7 *)
Definition F6_mul r a b (m : mem) := m
  |> F2mul (tm 0) (fz a) (fz b) |> F2mul (tm 1) (fy a) (fy b) |> F2mul (tm 2) (fx a) (fx b)
  |> F2_add (tm 3) (fx a) (fy a) |> F2_add (tm 4) (fx b) (fy b) |> F2mul (tm 5) (tm 3) (tm 4)
  |> F2_sub (tm 5) (tm 5) (tm 1) |> F2_sub (tm 5) (tm 5) (tm 2) |> F2_mulXi (tm 5) (tm 5) |> F2_add (tm 5) (tm 5) (tm 0)
  |> F2_add (tm 3) (fy a) (fz a) |> F2_add (tm 4) (fy b) (fz b) |> F2mul (tm 6) (tm 3) (tm 4)
  |> F2_sub (tm 6) (tm 6) (tm 0) |> F2_sub (tm 6) (tm 6) (tm 1) |> F2_mulXi (tm 3) (tm 2) |> F2_add (tm 6) (tm 6) (tm 3)
  |> F2_add (tm 3) (fx a) (fz a) |> F2_add (tm 4) (fx b) (fz b) |> F2mul (tm 7) (tm 3) (tm 4)
  |> F2_sub (tm 7) (tm 7) (tm 0) |> F2_add (tm 7) (tm 7) (tm 1) |> F2_sub (tm 7) (tm 7) (tm 2)
  |> F2_copy (fx r) (tm 7) |> F2_copy (fy r) (tm 6) |> F2_copy (fz r) (tm 5).
(** lines 126-131; b is an F2 element *)
Definition F6_mulScalar r a b (m : mem) := m |> F2mul (fx r) (fx a) b |> F2mul (fy r) (fy a) b |> F2mul (fz r) (fz a) b.
(** lines 133-143; tz ty = locals 0, 1 *)
Definition F6_mulTau r a (m : mem) := m
  |> F2_mulXi (tm 0) (fx a) |> F2_copy (tm 1) (fy a) |> F2_copy (fy r) (fz a) |> F2_copy (fx r) (tm 1) |> F2_copy (fz r) (tm 0).
(** lines 145-150; b is a base field cell *)
Definition F6_mulGFP r a b (m : mem) := m |> F2_mulScalar (fx r) (fx a) b |> F2_mulScalar (fy r) (fy a) b |> F2_mulScalar (fz r) (fz a) b.
(** lines 152-183; v0 v1 v2 c0 c1 c2 xiV2 = locals 0..6 *)
Definition F6_square r a (m : mem) := m
  |> F2square (tm 0) (fz a) |> F2square (tm 1) (fy a) |> F2square (tm 2) (fx a)
  |> F2_add (tm 3) (fx a) (fy a) |> F2square (tm 3) (tm 3) |> F2_sub (tm 3) (tm 3) (tm 1) |> F2_sub (tm 3) (tm 3) (tm 2)
  |> F2_mulXi (tm 3) (tm 3) |> F2_add (tm 3) (tm 3) (tm 0)
  |> F2_add (tm 4) (fy a) (fz a) |> F2square (tm 4) (tm 4) |> F2_sub (tm 4) (tm 4) (tm 0) |> F2_sub (tm 4) (tm 4) (tm 1)
  |> F2_mulXi (tm 6) (tm 2) |> F2_add (tm 4) (tm 4) (tm 6)
  |> F2_add (tm 5) (fx a) (fz a) |> F2square (tm 5) (tm 5) |> F2_sub (tm 5) (tm 5) (tm 0) |> F2_add (tm 5) (tm 5) (tm 1)
  |> F2_sub (tm 5) (tm 5) (tm 2)
  |> F2_copy (fx r) (tm 5) |> F2_copy (fy r) (tm 4) |> F2_copy (fz r) (tm 3).
(** lines 209-240; t1 A B C_ F_ = locals 0..4 *)
Definition F6_inv r a (m : mem) := m
  |> F2square (tm 1) (fz a) |> F2mul (tm 0) (fx a) (fy a) |> F2_mulXi (tm 0) (tm 0) |> F2_sub (tm 1) (tm 1) (tm 0)
  |> F2square (tm 2) (fx a) |> F2_mulXi (tm 2) (tm 2) |> F2mul (tm 0) (fy a) (fz a) |> F2_sub (tm 2) (tm 2) (tm 0)
  |> F2square (tm 3) (fy a) |> F2mul (tm 0) (fx a) (fz a) |> F2_sub (tm 3) (tm 3) (tm 0)
  |> F2mul (tm 4) (tm 3) (fy a) |> F2_mulXi (tm 4) (tm 4) |> F2mul (tm 0) (tm 1) (fz a) |> F2_add (tm 4) (tm 4) (tm 0)
  |> F2mul (tm 0) (tm 2) (fx a) |> F2_mulXi (tm 0) (tm 0) |> F2_add (tm 4) (tm 4) (tm 0)
  |> F2inv (tm 4) (tm 4)
  |> F2mul (fx r) (tm 3) (tm 4) |> F2mul (fy r) (tm 2) (tm 4) |> F2mul (fz r) (tm 1) (tm 4).
(** lines 242-247; tmp = local 8 *)
Definition F6_div r a b (m : mem) := m |> F6_inv (tm 8) b |> F6_mul r a (tm 8).
(** lines 249-262 *)
Definition F6_isZero a (m : mem) : bool := F2_isZero (fx a) m && F2_isZero (fy a) m && F2_isZero (fz a) m.
Definition F6_isOne a (m : mem) : bool := F2_isZero (fx a) m && F2_isZero (fy a) m && F2_isOne (fz a) m.
Definition F6_eq a b (m : mem) : bool := F2_eq (fx a) (fx b) m && F2_eq (fy a) (fy b) m && F2_eq (fz a) (fz b) m.
(** lines 192-207; the constants are parameters (values from lines 10-22) *)
Definition F6_Frobenius (c1 c2 : loc) r a (m : mem) := m
  |> F2_conjugate (fx r) (fx a) |> F2_conjugate (fy r) (fy a) |> F2_conjugate (fz r) (fz a)
  |> F2mul (fx r) (fx r) c2 |> F2mul (fy r) (fy r) c1.
Definition F6_FrobeniusP2 (c1 c2 : loc) r a (m : mem) := m
  |> F2_mulScalar (fx r) (fx a) c2 |> F2_mulScalar (fy r) (fy a) c1 |> F2_copy (fz r) (fz a).

(** ** F12Field *)
Notation tp i := (R (T3 i)).
(** f12field.cpp lines 43-71 *)
Definition F12_add r a b (m : mem) := m |> F6_add (fx r) (fx a) (fx b) |> F6_add (fy r) (fy a) (fy b).
Definition F12_sub r a b (m : mem) := m |> F6_sub (fx r) (fx a) (fx b) |> F6_sub (fy r) (fy a) (fy b).
Definition F12_neg r a (m : mem) := m |> F6_neg (fx r) (fx a) |> F6_neg (fy r) (fy a).
Definition F12_conjugate r a (m : mem) := m |> F6_neg (fx r) (fx a) |> F6_copy (fy r) (fy a).
Definition F12_copy r a (m : mem) := m |> F6_copy (fx r) (fx a) |> F6_copy (fy r) (fy a).
(** lines 73-86; tx t ty = locals 0..2 *)
Definition F12_mul r a b (m : mem) := m
  |> F6_mul (tp 0) (fx a) (fy b) |> F6_mul (tp 1) (fx b) (fy a) |> F6_add (tp 0) (tp 0) (tp 1)
  |> F6_mul (tp 2) (fy a) (fy b) |> F6_mul (tp 1) (fx a) (fx b) |> F6_mulTau (tp 1) (tp 1)
  |> F6_add (fy r) (tp 2) (tp 1) |> F6_copy (fx r) (tp 0).
(** lines 88-92; b is an F6 element *)
Definition F12_mulScalar r a b (m : mem) := m |> F6_mul (fx r) (fx a) b |> F6_mul (fy r) (fy a) b.
(** lines 112-128; v0 t ty = locals 0..2 *)
Definition F12_square r a (m : mem) := m
  |> F6_mul (tp 0) (fx a) (fy a) |> F6_mulTau (tp 1) (fx a) |> F6_add (tp 1) (fy a) (tp 1)
  |> F6_add (tp 2) (fx a) (fy a) |> F6_mul (tp 2) (tp 2) (tp 1) |> F6_sub (tp 2) (tp 2) (tp 0)
  |> F6_mulTau (tp 1) (tp 0) |> F6_sub (tp 2) (tp 2) (tp 1)
  |> F6_copy (fy r) (tp 2) |> F6_dbl (fx r) (tp 0).
(** lines 144-157; t1 t2 = locals 0, 1 *)
Definition F12_inv r a (m : mem) := m
  |> F6_square (tp 0) (fx a) |> F6_square (tp 1) (fy a) |> F6_mulTau (tp 0) (tp 0) |> F6_sub (tp 0) (tp 1) (tp 0)
  |> F6_inv (tp 1) (tp 0)
  |> F6_neg (fx r) (fx a) |> F6_copy (fy r) (fy a) |> F12_mulScalar r r (tp 1).
(** lines 159-164; tmp = local 8 *)
Definition F12_div r a b (m : mem) := m |> F12_inv (tp 8) b |> F12_mul r a (tp 8).
(** lines 166-179 *)
Definition F12_isZero a (m : mem) : bool := F6_isZero (fx a) m && F6_isZero (fy a) m.
Definition F12_isOne a (m : mem) : bool := F6_isZero (fx a) m && F6_isOne (fy a) m.
Definition F12_eq a b (m : mem) : bool := F6_eq (fx a) (fx b) m && F6_eq (fy a) (fy b) m.
(** constant one (lines 17-24) written to a location *)
Definition F12_one r (m : mem) : mem :=
  upd (upd (upd (upd (upd (upd (upd (upd (upd (upd (upd (upd m
    (C 0 (C 0 (C 0 r))) r0) (C 1 (C 0 (C 0 r))) r0) (C 0 (C 1 (C 0 r))) r0) (C 1 (C 1 (C 0 r))) r0) (C 0 (C 2 (C 0 r))) r0) (C 1 (C 2 (C 0 r))) r0)
    (C 0 (C 0 (C 1 r))) r0) (C 1 (C 0 (C 1 r))) r0) (C 0 (C 1 (C 1 r))) r0) (C 1 (C 1 (C 1 r))) r0) (C 0 (C 2 (C 1 r))) r1) (C 1 (C 2 (C 1 r))) r0.
(** lines 94-110; t = local 9.  scalarSize*8-1 is computed in unsigned and
    converted to int: the number of turns is that of FrCpp.exp_iters. *)
Fixpoint F12_exp_loop (k : nat) r a (s : list Z) (m : mem) : mem :=
  match k with
  | O => m
  | S i => let m := F12_square (tp 9) r m in
           F12_exp_loop i r a s (if bit_is_set s i then F12_mul r (tp 9) a m else F12_copy r (tp 9) m)
  end.
Definition exp_turns (n : Z) : nat :=
  (let w := (n * 8 - 1) mod 2 ^ 32 in let i := if w <? 2 ^ 31 then w else w - 2 ^ 32 in Z.to_nat (i + 1))%Z.
Definition F12_exp r a (s : list Z) (m : mem) : mem :=
  F12_exp_loop (exp_turns (Z.of_nat (length s))) r a s (F12_one r m).
(** lines 130-142 *)
Definition F12_Frobenius (c1 c2 c6 : loc) r a (m : mem) := m
  |> F6_Frobenius c1 c2 (fx r) (fx a) |> F6_Frobenius c1 c2 (fy r) (fy a) |> F6_mulScalar (fx r) (fx r) c6.
Definition F12_FrobeniusP2 (c1 c2 c6 : loc) r a (m : mem) := m
  |> F6_FrobeniusP2 c1 c2 (fx r) (fx a) |> F6_mulGFP (fx r) (fx r) c6 |> F6_FrobeniusP2 c1 c2 (fy r) (fy a).
End Model.
