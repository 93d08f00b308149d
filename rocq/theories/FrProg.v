(** Straight-line programs over field elements: the memory run by the library
    functions, and the specification on integers modulo q. *)
From Coq Require Import ZArith List Lia Bool.
From Verif Require Import Limbs Gen Raw Spec Fr FrSpec.
Import ListNotations.
Open Scope Z_scope.

(** Library entry points with one destination (fr.hpp.ejs lines 40-75). *)
Inductive bop := Add | Sub | Mul | Lt | Gt | Leq | Geq | Eq | Neq | Land | Lor
               | Band | Bor | Bxor | Shl | Shr.
Inductive uop := Square | Neg | Lnot | Bnot | Copy | ToNormal | ToLongNormal.
Inductive cmd :=
  | Bin (o : bop) (r a b : ptr)
  | Un (o : uop) (r a : ptr)
  | ToMont (r : ptr).          (** Fr_toMontgomery(r, r) *)

Definition exec (P : zq) (c : cmd) (m : mem) : mem :=
  match c with
  | Bin o r a b =>
    match o with
    | Add => Fr_add P r a b m | Sub => Fr_sub P r a b m | Mul => Fr_mul P r a b m
    | Lt => Fr_lt P r a b m | Gt => Fr_gt P r a b m | Leq => Fr_leq P r a b m | Geq => Fr_geq P r a b m
    | Eq => Fr_eq P r a b m | Neq => Fr_neq P r a b m
    | Land => Fr_land r a b m | Lor => Fr_lor r a b m
    | Band => Fr_band P r a b m | Bor => Fr_bor P r a b m | Bxor => Fr_bxor P r a b m
    | Shl => Fr_shl P r a b m | Shr => Fr_shr P r a b m
    end
  | Un o r a =>
    match o with
    | Square => Fr_square P r a m | Neg => Fr_neg P r a m | Lnot => Fr_lnot r a m
    | Bnot => Fr_bnot P r a m | Copy => Fr_copy r a m
    | ToNormal => Fr_toNormal P r a m | ToLongNormal => Fr_toLongNormal P r a m
    end
  | ToMont r => Fr_toMontgomery P r r m
  end.
Fixpoint run (P : zq) (l : list cmd) (m : mem) : mem :=
  match l with [] => m | c :: l => run P l (exec P c m) end.

(** *** Specification: the same program on integers in [0,q) *)
Definition bval (q : Z) (o : bop) (x y : Z) : Z :=
  match o with
  | Add => (x + y) mod q | Sub => (x - y) mod q | Mul => (x * y) mod q
  | Lt => Z.b2z (signed q x <? signed q y) | Gt => Z.b2z (signed q x >? signed q y)
  | Leq => Z.b2z (signed q x <=? signed q y) | Geq => Z.b2z (signed q x >=? signed q y)
  | Eq => Z.b2z (x =? y) | Neq => Z.b2z (negb (x =? y))
  | Land => Z.b2z (negb (x =? 0) && negb (y =? 0)) | Lor => Z.b2z (negb (x =? 0) || negb (y =? 0))
  | Band => (Z.land x y mod 2 ^ bitlen q) mod q
  | Bor => (Z.lor x y mod 2 ^ bitlen q) mod q
  | Bxor => (Z.lxor x y mod 2 ^ bitlen q) mod q
  | Shl => shift_val q (shl_val q) shr_val x y
  | Shr => shift_val q shr_val (shl_val q) x y
  end.
Definition uval (q : Z) (o : uop) (x : Z) : Z :=
  match o with
  | Square => (x * x) mod q | Neg => (- x) mod q | Lnot => Z.b2z (x =? 0)
  | Bnot => (Z.lnot x mod 2 ^ bitlen q) mod q
  | Copy | ToNormal | ToLongNormal => x
  end.

(** Values of the initialised elements. *)
Definition env := ptr -> option Z.
Definition set (e : env) (r : ptr) (v : Z) : env := fun p => if ptr_eqb p r then Some v else e p.
Definition vexec (q : Z) (c : cmd) (e : env) : option env :=
  match c with
  | Bin o r a b => match e a, e b with Some x, Some y => Some (set e r (bval q o x y)) | _, _ => None end
  | Un o r a => match e a with Some x => Some (set e r (uval q o x)) | None => None end
  | ToMont r => match e r with Some x => Some (set e r x) | None => None end
  end.
(** [None]: the program reads an element that was never initialised. *)
Fixpoint vrun (q : Z) (l : list cmd) (e : env) : option env :=
  match l with
  | [] => Some e
  | c :: l => match vexec q c e with Some e' => vrun q l e' | None => None end
  end.

(** The operations that are not safe in place need a separate destination. *)
Definition needs_distinct (o : bop) : bool :=
  match o with Add | Sub | Band | Bor | Bxor | Shl | Shr => true | _ => false end.
Definition ok_cmd (c : cmd) : Prop :=
  match c with
  | Bin o r a b => usr r /\ usr a /\ usr b /\ (needs_distinct o = true -> r <> a /\ r <> b)
  | Un o r a => usr r /\ usr a /\ (o = Bnot -> r <> a)
  | ToMont r => usr r
  end.
Definition agrees (q : Z) (n : nat) (m : mem) (e : env) : Prop :=
  forall p v, usr p -> e p = Some v -> elt q n m p v.
