(** The AArch64 bitwise operations: Gen_rawBinOp of src/armbuilder.js, lines 635-697, with
    genLboMask, 329-334; the registers are those of Gen_rawAdd ([addregs]). *)
From Coq Require Import ZArith List Bool.
From Verif Require Import Limbs Arm ArmMul.
Import ListNotations.
Open Scope Z_scope.
Local Open Scope nat_scope.

Inductive binop := BAnd | BOr | BXor | BNot.
Definition binins (k : binop) (d a b : reg) : instr :=
  match k with BAnd => And d a b | BOr => Orr d a b | BXor => Eor d a b | BNot => Mvn d a end.
(** 329-334 *)
Definition lboMask (last mr : reg) : list instr := [Adr mr SlboMask; Ldr mr mr 0%Z; And last last mr].
(** 651-692, 1659-1662 *)
Definition rawBin (k : binop) (n : nat) : list instr :=
  let '(w, r1, r2, sv) := addregs n in
  let b1 := cyclicCopy w n in
  pushRegs sv ++
  match k with
  | BNot => flat_map (fun i => ldw r1 i 1 ++ [Mvn (ix r1 i) (ix r1 i)]) (seq 0 n)
  | _ => flat_map (fun i => ldw r1 i 1 ++ ldw b1 i 2 ++ [binins k (ix r1 i) (ix r1 i) (ix b1 i)]) (seq 0 n)
  end ++
  lboMask (ix r1 (n - 1)) 2 ++ [Adr 3 Srawq] ++ subld n r2 r1 r2 3 ++ cselStore n r1 r2 r1 0 ++ popRegs sv ++ [Ret].
