(** The x86-64 toInt: src/copy.asm.ejs, lines 150-212, and fromMont_r of
    src/utils.asm.ejs, lines 73-83. *)
From Coq Require Import ZArith List Bool Arith.
From Verif Require Import Limbs X86 X86Gen X86Raw X86T.
Import ListNotations.
Open Scope Z_scope.

Section ToInt.
Variable lay : sym -> Z.
Variable ra : Z.
Variable n : nat.
Variable opt : bool.
(** Fr_fail, which asserts false (src/fr.cpp.ejs, lines 165-167) *)
Variable fail : mach -> option mach.
(** utils.asm.ejs 73-83: the temporary starts at the word of the saved rsi *)
Definition conv_r (f : mach -> option mach) : list tinstr :=
  [subi RSP (Z.of_nat (n + 1) * 8); push RSI; mov RSI RDI; mov RDI RSP; Callf f; pop RSI].
(** the checks of the limbs from 1 on, lines 172-176 and 187-191 *)
Definition zeroI (i : nat) : list tinstr := [X (I Imov [OReg RCX; at8 RDI (i + 1)]); X (I Itest [OReg RCX; OReg RCX]); jnz 72].
Definition sbbI (i : nat) : list tinstr := [X (I Imov [OReg RCX; at8 RDI (i + 1)]); X (I Isbb [OReg RCX; q8 i]); jnc 73].
(** longNormal, longNeg and longErr *)
Definition iNorm : list tinstr := [ld RAX RDI 8; mov RCX RAX; Sh (ShrI RCX 31); jnz 72] ++ flat_map zeroI (seq 1 (n - 1)) ++ leaveRet.
Definition iNeg : list tinstr :=
  [ld RAX RDI 8; X (I Isub [OReg RAX; q8 0]); jnc 73] ++ flat_map sbbI (seq 1 (n - 1)) ++ [mov RCX RAX; Sh (SarI RCX 31); X (I Iadd [OReg RCX; OImm 1]); jnz 73] ++ leaveRet.
Definition iErr : list tinstr := [push RDI; movi RDI 0; Callf fail; pop RDI] ++ leaveRet.
Definition iHead : list tinstr := [ld RAX RDI 0; Bt RAX 63; jc 70; Movsx RAX RAX; TRet].
Definition iLong : list tinstr := enterOp ++ [Bt RAX 62; jnc 71] ++ conv_r (f_toNormal lay ra n opt) ++ [lab 71] ++ iNorm ++ [lab 72] ++ iNeg.
Definition asm_toInt : list tinstr := iHead ++ [lab 70] ++ iLong ++ [lab 73] ++ iErr.
Definition f_toInt : mach -> option mach := tcall lay ra asm_toInt.
End ToInt.
(** An assertion that stops the program, and one that is compiled out *)
Definition fail_stops : mach -> option mach := fun _ => None.
Definition fail_returns : mach -> option mach := fun m => Some (setr m RSP ((regs m RSP + 8) mod B)).
