(** The straight-line raw routines of the assembly templates: src/copy.asm.ejs,
    src/add.asm.ejs, src/sub.asm.ejs, src/neg.asm.ejs, src/cmpops.asm.ejs and
    rawToMontgomery of src/montgomery.asm.ejs.

    As in X86Gen.v the final "ret" is left to [call].  A "ret" in the middle of a
    routine is modelled as a jump to its end. *)
From Coq Require Import ZArith List Bool Arith.
From Verif Require Import Limbs X86.
Import ListNotations.

Definition at8 (r : reg) (i : nat) : opd := OMem (BReg r) (Z.of_nat i * 8).
Definition q8 (i : nat) : opd := OMem (BSym Sq) (Z.of_nat i * 8).
Definition l_sq : label := 0%nat.
Definition l_done : label := 1%nat.
Definition l_neg : label := 2%nat.
Definition l_ret0 : label := 3%nat.

(** copy.asm.ejs lines 12-17 (the type word and the limbs), 31-36, 49-54 *)
Definition asm_rawCopy (n : nat) : list instr := flat_map (fun i => [I Imov [OReg RAX; at8 RSI i]; I Imov [at8 RDI i; OReg RAX]]) (seq 0 n).
Definition asm_copy (n : nat) : list instr := asm_rawCopy (S n).
Definition asm_rawZero (n : nat) : list instr := I Ixor [OReg RAX; OReg RAX] :: map (fun i => I Imov [at8 RDI i; OReg RAX]) (seq 0 n).
(** copy.asm.ejs lines 67-74 *)
Definition asm_rawSwap (n : nat) : list instr :=
  flat_map (fun i => [I Imov [OReg RAX; at8 RSI i]; I Imov [OReg RCX; at8 RDI i]; I Imov [at8 RDI i; OReg RAX]; I Imov [at8 RSI i; OReg RBX]]) (seq 0 n).
(** add.asm.ejs lines 210-235 *)
Definition addOp (i : nat) : iname := if Nat.eqb i 0 then Iadd else Iadc.
Definition subOp (i : nat) : iname := if Nat.eqb i 0 then Isub else Isbb.
Definition asm_subq (n : nat) : list instr := flat_map (fun i => [I Imov [OReg RAX; q8 i]; I (subOp i) [at8 RDI i; OReg RAX]]) (seq 0 n).
Definition asm_addq (n : nat) : list instr := flat_map (fun i => [I Imov [OReg RAX; q8 i]; I (addOp i) [at8 RDI i; OReg RAX]]) (seq 0 n).
Definition asm_rawAdd (n : nat) : list instr :=
  flat_map (fun i => [I Imov [OReg RAX; at8 RSI i]; I (addOp i) [OReg RAX; at8 RDX i]; I Imov [at8 RDI i; OReg RAX]]) (seq 0 n) ++
  [J Cc l_sq] ++
  flat_map (fun i => (if Nat.eqb i 0 then [] else [I Imov [OReg RAX; at8 RDI (n - i - 1)]]) ++ [I Icmp [OReg RAX; q8 (n - i - 1)]; J Cc l_done; J Cnz l_sq]) (seq 0 n) ++
  [Lab l_sq] ++ asm_subq n ++ [Lab l_done].
(** sub.asm.ejs lines 288-305 *)
Definition asm_rawSub (n : nat) : list instr :=
  flat_map (fun i => [I Imov [OReg RAX; at8 RSI i]; I (subOp i) [OReg RAX; at8 RDX i]; I Imov [at8 RDI i; OReg RAX]]) (seq 0 n) ++
  [J Cnc l_done] ++ asm_addq n ++ [Lab l_done].
(** neg.asm.ejs lines 59-80 *)
Definition asm_rawNeg (n : nat) : list instr :=
  [I Ixor [OReg RAX; OReg RAX]] ++
  flat_map (fun i => [I Icmp [at8 RSI i; OReg RAX]; J Cnz l_neg]) (seq 0 n) ++
  map (fun i => I Imov [at8 RDI i; OReg RAX]) (seq 0 n) ++ [Jmp l_done] ++
  [Lab l_neg] ++
  flat_map (fun i => [I Imov [OReg RAX; q8 i]; I (subOp i) [OReg RAX; at8 RSI i]; I Imov [at8 RDI i; OReg RAX]]) (seq 0 n) ++
  [Lab l_done].
(** cmpops.asm.ejs lines 491-503, 516-528 *)
Definition asm_rawIsEq (n : nat) : list instr :=
  flat_map (fun i => [I Imov [OReg RAX; at8 RSI i]; I Icmp [at8 RDI i; OReg RAX]; J Cnz l_ret0]) (seq 0 n) ++
  [I Imov [OReg RAX; OImm 1]; Jmp l_done; Lab l_ret0; I Ixor [OReg RAX; OReg RAX]; Lab l_done].
Definition asm_rawIsZero (n : nat) : list instr :=
  flat_map (fun i => [I Icmp [at8 RDI i; OImm 0]; J Cnz l_ret0]) (seq 0 n) ++
  [I Imov [OReg RAX; OImm 1]; Jmp l_done; Lab l_ret0; I Ixor [OReg RAX; OReg RAX]; Lab l_done].
