(** The part of x86-64 used by the generated raw field routines.

    Registers and memory hold 64-bit words; memory is a map from byte addresses
    to the words stored there, accessed only at multiples of 8 (other accesses
    are outside the model: [None]).  Instructions that cannot be encoded (two
    memory operands, a memory destination of mulx/adcx/adox) are rejected too.
    Jumps go forward only, as in the generated code: a taken jump skips to its
    label. *)
From Coq Require Import ZArith List Bool.
From Verif Require Import Limbs.
Import ListNotations.
Open Scope Z_scope.

Inductive reg := RAX | RBX | RCX | RDX | RDI | RSI | RSP | RBP | R8 | R9 | R10 | R11 | R12 | R13 | R14 | R15.
Definition reg_eqb (a b : reg) : bool :=
  match a, b with
  | RAX, RAX | RBX, RBX | RCX, RCX | RDX, RDX | RDI, RDI | RSI, RSI | RSP, RSP | RBP, RBP
  | R8, R8 | R9, R9 | R10, R10 | R11, R11 | R12, R12 | R13, R13 | R14, R14 | R15, R15 => true
  | _, _ => false
  end.
(** labels in the data section *)
Inductive sym := Sq | Snp | Shalf | SR2 | SR3 | SlboMask.
Inductive base := BReg (r : reg) | BSym (s : sym).
Inductive opd := OReg (r : reg) | OMem (b : base) (off : Z) | OImm (v : Z).
Inductive iname := Iadcx | Iadox | Iadd | Iadc | Isub | Isbb | Icmp | Itest | Imov | Imulx | Ixor.
Definition label := nat.
Inductive cond := Cc | Cnc | Cz | Cnz.
Inductive instr := I (name : iname) (ops : list opd) | Push (r : reg) | Pop (r : reg) | J (c : cond) (l : label) | Jmp (l : label) | Lab (l : label) | Ret.

Record flags := { cf : bool; ovf : bool; zf : bool }.
Record mach := { regs : reg -> Z; fl : flags; mem : Z -> Z }.
Definition rupd {A} (f : reg -> A) r v : reg -> A := fun x => if reg_eqb x r then v else f x.
Definition mupd (f : Z -> Z) a v : Z -> Z := fun x => if x =? a then v else f x.
Definition b2z (b : bool) : Z := if b then 1 else 0.
Definition neg64 (x : Z) : bool := B / 2 <=? x.    (* sign bit *)

(** results of an instruction, one per operand ([None]: not written), from the
    values of its operands and of rdx *)
Definition addf (x y c : Z) (f : flags) : Z * flags :=
  let s := x + y + c in let r := s mod B in
  (r, {| cf := B <=? s; ovf := Bool.eqb (neg64 x) (neg64 y) && negb (Bool.eqb (neg64 x) (neg64 r)); zf := r =? 0 |}).
Definition subf (x y c : Z) (f : flags) : Z * flags :=
  let s := x - y - c in let r := s mod B in
  (r, {| cf := s <? 0; ovf := negb (Bool.eqb (neg64 x) (neg64 y)) && negb (Bool.eqb (neg64 x) (neg64 r)); zf := r =? 0 |}).
Definition sem (i : iname) (rdx : Z) (l : list Z) (f : flags) : option (list (option Z) * flags) :=
  match i, l with
  | Iadcx, [x; y] => let s := x + y + b2z (cf f) in Some ([Some (s mod B); None], {| cf := B <=? s; ovf := ovf f; zf := zf f |})
  | Iadox, [x; y] => let s := x + y + b2z (ovf f) in Some ([Some (s mod B); None], {| cf := cf f; ovf := B <=? s; zf := zf f |})
  | Iadd, [x; y] => let '(r, f) := addf x y 0 f in Some ([Some r; None], f)
  | Iadc, [x; y] => let '(r, f) := addf x y (b2z (cf f)) f in Some ([Some r; None], f)
  | Isub, [x; y] => let '(r, f) := subf x y 0 f in Some ([Some r; None], f)
  | Isbb, [x; y] => let '(r, f) := subf x y (b2z (cf f)) f in Some ([Some r; None], f)
  | Icmp, [x; y] => let '(_, f) := subf x y 0 f in Some ([None; None], f)
  | Itest, [x; y] => Some ([None; None], {| cf := false; ovf := false; zf := Z.land x y =? 0 |})
  | Imov, [_; y] => Some ([Some y; None], f)
  | Imulx, [_; _; y] => Some ([Some (rdx * y / B); Some ((rdx * y) mod B); None], f)
  | Ixor, [x; y] => Some ([Some (Z.lxor x y); None], {| cf := false; ovf := false; zf := x =? y |})
  | _, _ => None
  end.

Section Run.
Variable lay : sym -> Z.   (* addresses of the data section *)
Definition addr (m : mach) (b : base) (off : Z) : Z := (match b with BReg r => regs m r | BSym s => lay s end + off) mod B.
Definition is_mem (o : opd) : bool := match o with OMem _ _ => true | _ => false end.
Definition is_reg (o : opd) : bool := match o with OReg _ => true | _ => false end.
Definition encodable (i : iname) (ops : list opd) : bool :=
  match i, ops with
  | (Iadcx | Iadox), [x; y] => is_reg x && (is_reg y || is_mem y)
  | Imulx, [x; y; z] => is_reg x && is_reg y && (is_reg z || is_mem z)
  | _, [x; y] => (is_reg x || is_mem x) && negb (is_mem x && is_mem y)
  | _, _ => false
  end.
Definition rd (m : mach) (o : opd) : option Z :=
  match o with
  | OReg r => Some (regs m r)
  | OMem b off => let a := addr m b off in if a mod 8 =? 0 then Some (mem m a) else None
  | OImm v => Some v
  end.
Fixpoint rds (m : mach) (l : list opd) : option (list Z) :=
  match l with [] => Some [] | o :: l => match rd m o, rds m l with Some x, Some r => Some (x :: r) | _, _ => None end end.
Definition setr (m : mach) r v : mach := {| regs := rupd (regs m) r v; fl := fl m; mem := mem m |}.
Definition setm (m : mach) a v : mach := {| regs := regs m; fl := fl m; mem := mupd (mem m) a v |}.
Definition setf (m : mach) f : mach := {| regs := regs m; fl := f; mem := mem m |}.
(** addresses are those before the instruction; destinations are written from
    the last to the first *)
Definition wr (m0 m : mach) (o : opd) (v : Z) : mach :=
  match o with OReg r => setr m r v | OMem b off => setm m (addr m0 b off) v | OImm _ => m end.
Fixpoint wrs (m0 m : mach) (l : list opd) (vs : list (option Z)) : mach :=
  match l, vs with
  | o :: l, v :: vs => let m := wrs m0 m l vs in match v with Some v => wr m0 m o v | None => m end
  | _, _ => m
  end.
Definition exec (i : iname) (ops : list opd) (m : mach) : option mach :=
  if negb (encodable i ops) then None else
  match rds m ops with
  | None => None
  | Some l => match sem i (regs m RDX) l (fl m) with None => None | Some (vs, f) => Some (setf (wrs m m ops vs) f) end
  end.
Definition holds_cond (c : cond) (f : flags) : bool := match c with Cc => cf f | Cnc => negb (cf f) | Cz => zf f | Cnz => negb (zf f) end.
(** state and label being looked for *)
Definition step (i : instr) (s : mach * option label) : option (mach * option label) :=
  let '(m, sk) := s in
  match sk with
  | Some l => match i with Lab l' => Some (m, if Nat.eqb l l' then None else sk) | _ => Some s end
  | None =>
    match i with
    | I n ops => match exec n ops m with Some m => Some (m, None) | None => None end
    | Push r => let a := (regs m RSP - 8) mod B in if a mod 8 =? 0 then Some (setr (setm m a (regs m r)) RSP a, None) else None
    | Pop r => let a := regs m RSP in if a mod 8 =? 0 then Some (setr (setr m RSP ((a + 8) mod B)) r (mem m a), None) else None
    | J c l => Some (m, if holds_cond c (fl m) then Some l else None)
    | Jmp l => Some (m, Some l)
    | Lab _ => Some (m, None)
    | Ret => Some (m, None)   (* see [call] *)
    end
  end.
Fixpoint run (code : list instr) (s : mach * option label) : option (mach * option label) :=
  match code with [] => Some s | i :: code => match step i s with Some s => run code s | None => None end end.
End Run.
(** a routine whose code is [body] followed by ret: the return address is at
    rsp when it starts, and ret must find it there *)
Definition call (lay : sym -> Z) (body : list instr) (m : mach) : option mach :=
  match run lay body (m, None) with
  | Some (m', None) => if (regs m' RSP =? regs m RSP) && (mem m' (regs m RSP) =? mem m (regs m RSP)) then Some (setr m' RSP ((regs m RSP + 8) mod B)) else None
  | _ => None
  end.
