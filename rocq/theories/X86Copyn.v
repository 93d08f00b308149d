(** The x86-64 copyn: src/copy.asm.ejs, lines 89-100.  The direction flag is clear after
    "cld"; "rep movsq" moves one word at a time, rcx times. *)
From Coq Require Import ZArith List Bool Arith.
From Verif Require Import Limbs X86.
Open Scope Z_scope.
(** one movsq *)
Definition movsq (m : mach) : option mach :=
  let s := regs m RSI in let d := regs m RDI in
  if (s mod 8 =? 0) && (d mod 8 =? 0) then
    Some {| regs := rupd (rupd (regs m) RSI ((s + 8) mod B)) RDI ((d + 8) mod B); fl := fl m; mem := mupd (mem m) d (mem m s) |}
  else None.
(** rep: rcx counts down to zero *)
Fixpoint rep_movsq (k : nat) (m : mach) : option mach :=
  match k with
  | O => Some m
  | S k => match movsq m with
           | Some m => rep_movsq k {| regs := rupd (regs m) RCX ((regs m RCX - 1) mod B); fl := fl m; mem := mem m |}
           | None => None
           end
  end.
Definition set1 (m : mach) (r : reg) (v : Z) : mach := {| regs := rupd (regs m) r v; fl := fl m; mem := mem m |}.
(** mul: rdx:rax is the product of rax and the operand, CF and OF tell whether rdx is not zero *)
Definition mul64 (m : mach) (r : reg) : mach :=
  let p := regs m RAX * regs m r in let c := negb (p / B =? 0) in
  {| regs := rupd (rupd (regs m) RAX (p mod B)) RDX (p / B); fl := {| cf := c; ovf := c; zf := zf (fl m) |}; mem := mem m |}.
(** lines 91-99; [n] is the number of limbs *)
Definition asm_copyn (n : nat) (m : mach) : option mach :=
  let m := set1 m R8 (regs m RSI) in
  let m := set1 m R9 (regs m RDI) in
  let m := mul64 (set1 m RAX (Z.of_nat (n + 1))) RDX in
  let m := set1 m RCX (regs m RAX) in
  match rep_movsq (Z.to_nat (regs m RCX)) m with
  | Some m => let m := set1 m RSI (regs m R8) in Some (set1 m RDI (regs m R9))
  | None => None
  end.
(** with its ret: the return address must still be there *)
Definition f_copyn (n : nat) (m : mach) : option mach :=
  match asm_copyn n m with
  | Some m' => if mem m' (regs m RSP) =? mem m (regs m RSP) then Some (set1 m' RSP ((regs m RSP + 8) mod B)) else None
  | None => None
  end.
