(** Model of c/curve.cpp and the inline functions of c/curve.hpp.

    The base field is a [rng] (Tower.v): one cell per field element; when the
    base field is F2Field, PropsTower.v shows that its operations act in this
    way on F2 elements.  A Point at location p has the cells x, y, zz, zzz =
    C 0..3 p, a PointAffine the cells C 0 p, C 1 p.  Locals of field type are
    R (T1 _), the Point and PointAffine locals of the inline functions are
    R (T2 _).  COUNT_OPS counters and toString are left out. *)
From Coq Require Import List Bool.
From Verif Require Import Tower.
Import ListNotations.

Section Curve.
Variable K : rng.
Variables fa fb : K.
Notation mem := (mem K).
Notation F_add := (F_add K). Notation F_sub := (F_sub K). Notation F_mul := (F_mul K). Notation F_neg := (F_neg K).
Notation F_square := (F_square K). Notation F_copy := (F_copy K). Notation F_zero := (F_zero K).
Notation "m |> f" := (f m) (at level 50, left associativity, only parsing).
Notation X p := (C 0 p). Notation Y p := (C 1 p). Notation ZZ p := (C 2 p). Notation ZZZ p := (C 3 p).
Notation t i := (R (T1 i)).
Definition F_set r (v : K) (m : mem) : mem := upd K m r v.
Definition F_isZero a (m : mem) : bool := reqb (m a) r0.
(** F.div: inv followed by mul (fr.cpp.ejs lines 277-281, C23) *)
Definition F_div r a b (m : mem) : mem := upd K m r (rmul (m a) (rinv (m b))).

Inductive typeOfA := a_is_zero | a_is_one | a_is_negone | a_is_long.
(** curve.cpp lines 44-52 *)
Definition a_type : typeOfA :=
  if reqb fa r0 then a_is_zero else if reqb fa r1 then a_is_one else if reqb fa (ropp r1) then a_is_negone else a_is_long.
(** lines 60-68 *)
Definition mulByA r ab (m : mem) : mem :=
  match a_type with
  | a_is_zero => F_zero r m
  | a_is_one => F_copy r ab m
  | a_is_negone => F_neg r ab m
  | a_is_long => F_set r (rmul fa (m ab)) m
  end.
(** lines 529-537 *)
Definition P_isZero p (m : mem) : bool := F_isZero (ZZ p) m.
Definition A_isZero p (m : mem) : bool := F_isZero (X p) m && F_isZero (Y p) m.
(** lines 539-580: copies P<-P, P<-A, A<-P, A<-A *)
Definition PP_copy r a (m : mem) := m |> F_copy (X r) (X a) |> F_copy (Y r) (Y a) |> F_copy (ZZ r) (ZZ a) |> F_copy (ZZZ r) (ZZZ a).
Definition PA_copy r a (m : mem) :=
  if A_isZero a m then m |> F_set (X r) r1 |> F_set (Y r) r1 |> F_set (ZZ r) r0 |> F_set (ZZZ r) r0
  else m |> F_copy (X r) (X a) |> F_copy (Y r) (Y a) |> F_set (ZZ r) r1 |> F_set (ZZZ r) r1.
Definition AP_copy r a (m : mem) :=
  if P_isZero a m then m |> F_set (X r) r0 |> F_set (Y r) r0
  else m |> F_div (X r) (X a) (ZZ a) |> F_div (Y r) (Y a) (ZZZ a).
Definition AA_copy r a (m : mem) := m |> F_copy (X r) (X a) |> F_copy (Y r) (Y a).
(** lines 582-617: negations *)
Definition PP_neg r a (m : mem) := m |> F_copy (X r) (X a) |> F_neg (Y r) (Y a) |> F_copy (ZZ r) (ZZ a) |> F_copy (ZZZ r) (ZZZ a).
Definition PA_neg r a (m : mem) := m |> F_copy (X r) (X a) |> F_neg (Y r) (Y a) |> F_set (ZZ r) r1 |> F_set (ZZZ r) r1.
Definition AP_neg r a (m : mem) :=
  if P_isZero a m then m |> F_set (X r) r0 |> F_set (Y r) r0
  else m |> F_div (X r) (X a) (ZZ a) |> F_div (Y r) (Y a) (ZZZ a) |> F_neg (Y r) (Y r).
Definition AA_neg r a (m : mem) := m |> F_copy (X r) (X a) |> F_neg (Y r) (Y a).

(** lines 337-394; tmp U V W S M = locals 10..15 *)
Definition PP_dbl p3 p1 (m : mem) :=
  if P_isZero p1 m then PP_copy p3 p1 m else
  let m := m |> F_add (t 11) (Y p1) (Y p1) |> F_square (t 12) (t 11) |> F_mul (t 13) (t 11) (t 12) |> F_mul (t 14) (X p1) (t 12)
    |> F_square (t 15) (X p1) |> F_add (t 10) (t 15) (t 15) |> F_add (t 15) (t 15) (t 10) in
  let m := match a_type with
           | a_is_zero => m
           | _ => m |> F_square (t 10) (ZZ p1) |> mulByA (t 10) (t 10) |> F_add (t 15) (t 15) (t 10)
           end in
  m |> F_square (X p3) (t 15) |> F_sub (X p3) (X p3) (t 14) |> F_sub (X p3) (X p3) (t 14)
    |> F_mul (t 10) (t 13) (Y p1) |> F_sub (Y p3) (t 14) (X p3) |> F_mul (Y p3) (t 15) (Y p3) |> F_sub (Y p3) (Y p3) (t 10)
    |> F_mul (ZZ p3) (t 12) (ZZ p1) |> F_mul (ZZZ p3) (t 13) (ZZZ p1).
(** lines 408-456; tmp U S M = locals 10, 11, 14, 15 *)
Definition PA_dbl p3 p1 (m : mem) :=
  if A_isZero p1 m then PA_copy p3 p1 m else
  m |> F_add (t 11) (Y p1) (Y p1) |> F_square (ZZ p3) (t 11) |> F_mul (ZZZ p3) (t 11) (ZZ p3) |> F_mul (t 14) (X p1) (ZZ p3)
    |> F_square (t 15) (X p1) |> F_add (t 10) (t 15) (t 15) |> F_add (t 15) (t 10) (t 15)
    |> (fun m => F_set (t 15) (radd (m (t 15)) fa) m)
    |> F_square (X p3) (t 15) |> F_sub (X p3) (X p3) (t 14) |> F_sub (X p3) (X p3) (t 14)
    |> F_mul (t 10) (ZZZ p3) (Y p1) |> F_sub (Y p3) (t 14) (X p3) |> F_mul (Y p3) (t 15) (Y p3) |> F_sub (Y p3) (Y p3) (t 10).

(** lines 88-164; tmp U1 U2 S1 S2 P R PP PPP Q = locals 0..9 *)
Definition PPP_add p3 p1 p2 (m : mem) :=
  if P_isZero p1 m then PP_copy p3 p2 m else
  if P_isZero p2 m then PP_copy p3 p1 m else
  let m := m |> F_mul (t 1) (X p1) (ZZ p2) |> F_mul (t 2) (X p2) (ZZ p1) |> F_mul (t 3) (Y p1) (ZZZ p2) |> F_mul (t 4) (Y p2) (ZZZ p1)
    |> F_sub (t 5) (t 2) (t 1) |> F_sub (t 6) (t 4) (t 3) in
  if F_isZero (t 5) m && F_isZero (t 6) m then PP_dbl p3 p1 m else
  m |> F_square (t 7) (t 5) |> F_mul (t 8) (t 5) (t 7) |> F_mul (t 9) (t 1) (t 7)
    |> F_square (X p3) (t 6) |> F_sub (X p3) (X p3) (t 8) |> F_sub (X p3) (X p3) (t 9) |> F_sub (X p3) (X p3) (t 9)
    |> F_mul (t 0) (t 3) (t 8) |> F_sub (Y p3) (t 9) (X p3) |> F_mul (Y p3) (Y p3) (t 6) |> F_sub (Y p3) (Y p3) (t 0)
    |> F_mul (ZZ p3) (ZZ p1) (ZZ p2) |> F_mul (ZZ p3) (ZZ p3) (t 7)
    |> F_mul (ZZZ p3) (ZZZ p1) (ZZZ p2) |> F_mul (ZZZ p3) (ZZZ p3) (t 8).
(** lines 182-248; tmp U2 S2 P R PP PPP Q = locals 0, 2, 4..9 *)
Definition PPA_add p3 p1 p2 (m : mem) :=
  if P_isZero p1 m then PA_copy p3 p2 m else
  if A_isZero p2 m then PP_copy p3 p1 m else
  let m := m |> F_mul (t 2) (X p2) (ZZ p1) |> F_mul (t 4) (Y p2) (ZZZ p1) |> F_sub (t 5) (t 2) (X p1) |> F_sub (t 6) (t 4) (Y p1) in
  if F_isZero (t 5) m && F_isZero (t 6) m then PA_dbl p3 p2 m else
  m |> F_square (t 7) (t 5) |> F_mul (t 8) (t 5) (t 7) |> F_mul (t 9) (X p1) (t 7)
    |> F_square (X p3) (t 6) |> F_sub (X p3) (X p3) (t 8) |> F_sub (X p3) (X p3) (t 9) |> F_sub (X p3) (X p3) (t 9)
    |> F_mul (t 0) (Y p1) (t 8) |> F_sub (Y p3) (t 9) (X p3) |> F_mul (Y p3) (Y p3) (t 6) |> F_sub (Y p3) (Y p3) (t 0)
    |> F_mul (ZZ p3) (ZZ p1) (t 7) |> F_mul (ZZZ p3) (ZZZ p1) (t 8).
(** lines 263-320; tmp P R PP PPP Q = locals 0, 5..9 *)
Definition PAA_add p3 p1 p2 (m : mem) :=
  if A_isZero p1 m then PA_copy p3 p2 m else
  if A_isZero p2 m then PA_copy p3 p1 m else
  let m := m |> F_sub (t 5) (X p2) (X p1) |> F_sub (t 6) (Y p2) (Y p1) in
  if F_isZero (t 5) m && F_isZero (t 6) m then PA_dbl p3 p2 m else
  m |> F_square (t 7) (t 5) |> F_mul (t 8) (t 5) (t 7) |> F_mul (t 9) (X p1) (t 7)
    |> F_square (X p3) (t 6) |> F_sub (X p3) (X p3) (t 8) |> F_sub (X p3) (X p3) (t 9) |> F_sub (X p3) (X p3) (t 9)
    |> F_mul (t 0) (Y p1) (t 8) |> F_sub (Y p3) (t 9) (X p3) |> F_mul (Y p3) (Y p3) (t 6) |> F_sub (Y p3) (Y p3) (t 0)
    |> F_copy (ZZ p3) (t 7) |> F_copy (ZZZ p3) (t 8).
(** lines 458-526 *)
Definition PP_eq p1 p2 (m : mem) : bool :=
  if P_isZero p1 m then P_isZero p2 m else
  let m := m |> F_mul (t 1) (X p1) (ZZ p2) |> F_mul (t 2) (X p2) (ZZ p1) |> F_mul (t 3) (Y p1) (ZZZ p2) |> F_mul (t 4) (Y p2) (ZZZ p1)
    |> F_sub (t 5) (t 2) (t 1) |> F_sub (t 6) (t 4) (t 3) in
  F_isZero (t 5) m && F_isZero (t 6) m.
Definition PA_eq p1 p2 (m : mem) : bool :=
  if P_isZero p1 m then A_isZero p2 m else
  let m := m |> F_mul (t 2) (X p2) (ZZ p1) |> F_mul (t 4) (Y p2) (ZZZ p1) |> F_sub (t 5) (t 2) (X p1) |> F_sub (t 6) (t 4) (Y p1) in
  F_isZero (t 5) m && F_isZero (t 6) m.
Definition AA_eq p1 p2 (m : mem) : bool := reqb (m (X p1)) (m (X p2)) && reqb (m (Y p1)) (m (Y p2)).

(** curve.hpp lines 67-95, inline variants.  Names: destination, first operand,
    second operand; P = Point, A = PointAffine.  tmp = local 0 (add), 1 (sub). *)
Notation tp i := (R (T2 i)).
Definition PAP_add p3 p1 p2 (m : mem) := PPA_add p3 p2 p1 m.
Definition APP_add p3 p1 p2 (m : mem) := m |> PPP_add (tp 0) p1 p2 |> AP_copy p3 (tp 0).
Definition APA_add p3 p1 p2 (m : mem) := m |> PPA_add (tp 0) p1 p2 |> AP_copy p3 (tp 0).
Definition AAA_add p3 p1 p2 (m : mem) := m |> PAA_add (tp 0) p1 p2 |> AP_copy p3 (tp 0).
Definition AAP_add p3 p1 p2 (m : mem) := m |> PAP_add (tp 0) p1 p2 |> AP_copy p3 (tp 0).
Definition PPP_sub p3 p1 p2 (m : mem) := m |> PP_neg (tp 1) p2 |> PPP_add p3 p1 (tp 1).
Definition PPA_sub p3 p1 p2 (m : mem) := m |> AA_neg (tp 1) p2 |> PPA_add p3 p1 (tp 1).
Definition PAA_sub p3 p1 p2 (m : mem) := m |> AA_neg (tp 1) p2 |> PAA_add p3 p1 (tp 1).
Definition PAP_sub p3 p1 p2 (m : mem) := m |> PP_neg (tp 1) p2 |> PAP_add p3 p1 (tp 1).
Definition APP_sub p3 p1 p2 (m : mem) := m |> PP_neg (tp 1) p2 |> APP_add p3 p1 (tp 1).
Definition APA_sub p3 p1 p2 (m : mem) := m |> AA_neg (tp 1) p2 |> APA_add p3 p1 (tp 1).
Definition AAA_sub p3 p1 p2 (m : mem) := m |> AA_neg (tp 1) p2 |> AAA_add p3 p1 (tp 1).
Definition AAP_sub p3 p1 p2 (m : mem) := m |> PP_neg (tp 1) p2 |> AAP_add p3 p1 (tp 1).
Definition AP_dbl r a (m : mem) := m |> PP_dbl (tp 0) a |> AP_copy r (tp 0).
Definition AA_dbl r a (m : mem) := m |> PA_dbl (tp 0) a |> AP_copy r (tp 0).
Definition AP_eq p1 p2 (m : mem) : bool := PA_eq p2 p1 m.
End Curve.
