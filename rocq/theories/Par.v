(** Straight-line programs run by several threads: definitions.
    A thread is a list of instructions, each of which reads some cells and
    writes one; an execution is any interleaving of the threads. *)
From Coq Require Import ZArith List Bool.
Import ListNotations.

(** cells: arrays, named by a number, and the locals of each thread *)
Inductive addr := Sh (arr : nat) (i : Z) | Lo (th : Z) (k : nat).
Definition addr_eqb (a b : addr) : bool :=
  match a, b with
  | Sh r i, Sh r' i' => Nat.eqb r r' && Z.eqb i i'
  | Lo t k, Lo t' k' => Z.eqb t t' && Nat.eqb k k'
  | _, _ => false
  end.
Section P.
Variable V : Type.
Definition pmem := addr -> V.
Definition pset (m : pmem) (a : addr) (v : V) : pmem := fun b => if addr_eqb b a then v else m b.
Record instr := Ins { dst : addr; srcs : list addr; fn : list V -> V }.
Definition exec1 (x : instr) (m : pmem) : pmem := pset m (dst x) (fn x (map m (srcs x))).
Definition prun (l : list instr) (m : pmem) : pmem := fold_left (fun m x => exec1 x m) l m.
Definition meq (m m' : pmem) : Prop := forall a, m a = m' a.

(** [inter ts l]: l is an interleaving of the threads ts *)
Inductive inter : list (list instr) -> list instr -> Prop :=
| inter_nil : forall ts, Forall (fun t => t = []) ts -> inter ts []
| inter_cons : forall pre x t post l, inter (pre ++ t :: post) l -> inter (pre ++ (x :: t) :: post) (x :: l).

(** no thread writes a cell that another one uses *)
Definition noconf (x y : instr) : Prop := dst x <> dst y /\ ~ List.In (dst x) (srcs y) /\ ~ List.In (dst y) (srcs x).
Definition indep (t u : list instr) : Prop := forall x y, List.In x t -> List.In y u -> noconf x y.
Definition race_free (ts : list (list instr)) : Prop := ForallOrdPairs indep ts.
End P.
Arguments Ins {V}. Arguments dst {V}. Arguments srcs {V}. Arguments fn {V}. Arguments exec1 {V}. Arguments prun {V}. Arguments meq {V}. Arguments inter {V}.
Arguments noconf {V}. Arguments indep {V}. Arguments race_free {V}. Arguments pset {V}.
