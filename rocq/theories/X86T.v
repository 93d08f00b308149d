(** The x86-64 code of the tagged operations: src/copy.asm.ejs, src/montgomery.asm.ejs,
    src/add.asm.ejs, src/sub.asm.ejs, src/neg.asm.ejs, src/mul.asm.ejs,
    src/cmpops.asm.ejs, src/logicalops.asm.ejs, src/utils.asm.ejs and
    src/binops.asm.ejs.

    The machine is the one of X86.v with more instructions.  An element occupies
    n+1 words: the first one holds shortVal in its low and type in its high half.

    Simplifications: a comparison and the jump on the sign flag (or on a condition
    that is no single modelled flag) that follows it are one instruction [CmpJ]; all calls push the same
    unspecified return address [ra]; a callee is a function on machines, which
    returns only if it leaves the stack pointer and the return address intact. *)
From Coq Require Import ZArith List Bool Arith.
From Verif Require Import Limbs X86 X86Gen X86Raw.
Import ListNotations.
Open Scope Z_scope.

Definition W32 : Z := 2 ^ 32.
(** the low 32 bits, and all 64, as signed numbers *)
Definition sx32 (x : Z) : Z := let y := x mod W32 in if y <? 2 ^ 31 then y else y - W32.
Definition sx64 (x : Z) : Z := if x <? B / 2 then x else x - B.
Definition fits32 (x : Z) : bool := (- 2 ^ 31 <=? x) && (x <? 2 ^ 31).
Definition fits64 (x : Z) : bool := (- (B / 2) <=? x) && (x <? B / 2).

Inductive bitop := Band | Bor | Bxor.
Definition bit_op (o : bitop) : Z -> Z -> Z := match o with Band => Z.land | Bor => Z.lor | Bxor => Z.lxor end.
Inductive scond := Cs | Cns | Cg | Cl | Ce | Ca | Cae.
(** shifts and byte registers of rcx *)
Inductive shi :=
| ShrI (d : reg) (k : Z) | SarI (d : reg) (k : Z)   (* shr d, k; sar d, k *)
| ShlCl (d : reg) | ShrCl (d : reg)     (* shl d, cl; shr d, cl *)
| RolCx8                                (* rol cx, 8 *)
| MovCh (v : Z) | SubChCl | MovClDl     (* mov ch, v; sub ch, cl; mov cl, dl *)
| LdIdx (d b : reg) (off : Z).          (* mov d, [b + r8*8 + off] *)
Inductive tinstr :=
| X (i : instr)
| Bt (r : reg) (k : Z)                  (* bt r, k *)
| Movsx (d s : reg)                     (* movsx d, s (32 to 64 bits) *)
| Mov32 (d s : reg)                     (* mov d, s (32 bits) *)
| Add32 (d s : reg) | Sub32 (d s : reg) | Neg32 (d : reg) | Test32 (r : reg)
| Neg64 (d : reg)
| Lea (d : reg) (b : base) (off : Z)
| Mov8 (d : reg) (v : Z)                (* mov to the low byte of d *)
| Shl32 (d : reg) (k : Z) | Shl64 (d : reg) (k : Z)
| St32hi (b s : reg)                    (* mov [b+4], s (32 bits) *)
| Imul32 (s : reg) | Imul64 (s : reg)   (* one operand: (e/r)dx:(e/r)ax := (e/r)ax * s *)
| SetcDl | SetcDh | OrDlDh              (* setc dl; setc dh; or dl, dh *)
| And64 (d s : reg) | Or64 (d s : reg)
| Bit (o : bitop) (d : reg) (s : opd)   (* and/or/xor d, s *)
| Bit32 (o : bitop) (d s : reg)         (* and/or/xor d, s (32 bits) *)
| Not64 (d : reg)
| Ld32 (d b : reg)                      (* mov d, [b] (32 bits) *)
| Sh (s : shi)
| Jo (l : nat)
| CmpJ (w64 : bool) (x : reg) (y : opd) (c : scond) (l : nat)   (* cmp x, y; jump on c *)
| Callf (f : mach -> option mach)
| TRet.
Definition l_ret : label := 60%nat.

Section TRun.
Variable lay : sym -> Z.
Variable ra : Z.
Definition fl3 (c o z : bool) : flags := {| cf := c; ovf := o; zf := z |}.
Definition setb0 (m : mach) (d : reg) (v : Z) : mach := setr m d (regs m d - regs m d mod 256 + v).
Definition setb1 (m : mach) (d : reg) (v : Z) : mach := setr m d (regs m d - regs m d / 256 mod 256 * 256 + v * 256).
Definition exec_sh (s : shi) (m : mach) : option mach :=
  let cl := regs m RCX mod 256 in let ch := regs m RCX / 256 mod 256 in
  match s with
  | ShrI d k => let x := regs m d in let r := x / 2 ^ k in Some (setf (setr m d r) (fl3 (Z.testbit x (k - 1)) (ovf (fl m)) (r =? 0)))
  | SarI d k => let x := regs m d in let r := sx64 x / 2 ^ k mod B in Some (setf (setr m d r) (fl3 (Z.testbit x (k - 1)) (ovf (fl m)) (r =? 0)))
  | ShlCl d => let c := cl mod 64 in let x := regs m d in let r := x * 2 ^ c mod B in
      Some (if c =? 0 then m else setf (setr m d r) (fl3 (Z.testbit x (64 - c)) (ovf (fl m)) (r =? 0)))
  | ShrCl d => let c := cl mod 64 in let x := regs m d in let r := x / 2 ^ c in
      Some (if c =? 0 then m else setf (setr m d r) (fl3 (Z.testbit x (c - 1)) (ovf (fl m)) (r =? 0)))
  | RolCx8 => Some (setf (setb1 (setb0 m RCX ch) RCX cl) (fl3 (Z.odd ch) (ovf (fl m)) (zf (fl m))))
  | MovCh v => Some (setb1 m RCX v)
  | SubChCl => let r := (ch - cl) mod 256 in Some (setf (setb1 m RCX r) (fl3 (ch <? cl) (negb (Bool.eqb (128 <=? ch) (128 <=? cl)) && negb (Bool.eqb (128 <=? ch) (128 <=? r))) (r =? 0)))
  | MovClDl => Some (setb0 m RCX (regs m RDX mod 256))
  | LdIdx d b off => let a := (regs m b + regs m R8 * 8 + off) mod B in if a mod 8 =? 0 then Some (setr m d (mem m a)) else None
  end.
Definition texec (i : tinstr) (m : mach) : option mach :=
  match i with
  | Bt r k => Some (setf m (fl3 (Z.testbit (regs m r) k) (ovf (fl m)) (zf (fl m))))
  | Movsx d s => Some (setr m d (sx32 (regs m s) mod B))
  | Mov32 d s => Some (setr m d (regs m s mod W32))
  | Add32 d s => let r := sx32 (regs m d) + sx32 (regs m s) in
      Some (setf (setr m d (r mod W32)) (fl3 (W32 <=? regs m d mod W32 + regs m s mod W32) (negb (fits32 r)) (r mod W32 =? 0)))
  | Sub32 d s => let r := sx32 (regs m d) - sx32 (regs m s) in
      Some (setf (setr m d (r mod W32)) (fl3 (regs m d mod W32 <? regs m s mod W32) (negb (fits32 r)) (r mod W32 =? 0)))
  | Neg32 d => let r := - sx32 (regs m d) in
      Some (setf (setr m d (r mod W32)) (fl3 (negb (r mod W32 =? 0)) (negb (fits32 r)) (r mod W32 =? 0)))
  | Test32 r => Some (setf m (fl3 false false (regs m r mod W32 =? 0)))
  | Neg64 d => let r := - regs m d in
      Some (setf (setr m d (r mod B)) (fl3 (negb (r mod B =? 0)) (regs m d =? B / 2) (r mod B =? 0)))
  | Lea d b off => Some (setr m d (addr lay m b off))
  | Mov8 d v => Some (setr m d (regs m d - regs m d mod 256 + v))
  | Shl32 d k => let x := regs m d mod W32 in Some (setf (setr m d (x * 2 ^ k mod W32)) (fl3 (Z.testbit x (32 - k)) (ovf (fl m)) (x * 2 ^ k mod W32 =? 0)))
  | Shl64 d k => let x := regs m d in Some (setf (setr m d (x * 2 ^ k mod B)) (fl3 (Z.testbit x (64 - k)) (ovf (fl m)) (x * 2 ^ k mod B =? 0)))
  | St32hi b s => let a := regs m b in if a mod 8 =? 0 then Some (setm m a (mem m a mod W32 + regs m s mod W32 * W32)) else None
  | Imul32 s => let r := sx32 (regs m RAX) * sx32 (regs m s) in let o := negb (fits32 r) in
      Some (setf (setr (setr m RAX (r mod W32)) RDX (r / W32 mod W32)) (fl3 o o (zf (fl m))))
  | Imul64 s => let r := sx64 (regs m RAX) * sx64 (regs m s) in let o := negb (fits64 r) in
      Some (setf (setr (setr m RAX (r mod B)) RDX (r / B mod B)) (fl3 o o (zf (fl m))))
  | SetcDl => let d := regs m RDX in Some (setr m RDX (d - d mod 256 + b2z (cf (fl m))))
  | SetcDh => let d := regs m RDX in Some (setr m RDX (d - d / 256 mod 256 * 256 + b2z (cf (fl m)) * 256))
  | OrDlDh => let d := regs m RDX in let r := Z.lor (d mod 256) (d / 256 mod 256) in Some (setf (setr m RDX (d - d mod 256 + r)) (fl3 false false (r =? 0)))
  | And64 d s => let r := Z.land (regs m d) (regs m s) in Some (setf (setr m d r) (fl3 false false (r =? 0)))
  | Or64 d s => let r := Z.lor (regs m d) (regs m s) in Some (setf (setr m d r) (fl3 false false (r =? 0)))
  | Bit o d s => match rd lay m s with Some v => let r := bit_op o (regs m d) v in Some (setf (setr m d r) (fl3 false false (r =? 0))) | None => None end
  | Bit32 o d s => let r := bit_op o (regs m d mod W32) (regs m s mod W32) in Some (setf (setr m d r) (fl3 false false (r =? 0)))
  | Not64 d => Some (setr m d (B - 1 - regs m d))
  | Sh s => exec_sh s m
  | Ld32 d b => let a := regs m b in if a mod 8 =? 0 then Some (setr m d (mem m a mod W32)) else None
  | _ => None
  end.
Definition cmpval (w64 : bool) (m : mach) (o : opd) : option Z :=
  match o with OReg r => Some (if w64 then regs m r else regs m r mod W32) | OImm v => Some v | OMem _ _ => None end.
Definition scond_holds (w64 : bool) (x y : Z) (c : scond) : bool :=
  let sx := if w64 then sx64 else sx32 in let W := if w64 then B else W32 in
  match c with
  | Cs => sx ((x - y) mod W) <? 0
  | Cns => negb (sx ((x - y) mod W) <? 0)
  | Cg => sx y <? sx x
  | Cl => sx x <? sx y
  | Ce => x =? y
  | Ca => y <? x
  | Cae => y <=? x
  end.
Definition tstep (i : tinstr) (s : mach * option label) : option (mach * option label) :=
  let '(m, sk) := s in
  match i, sk with
  | X j, _ => step lay j s
  | _, Some _ => Some s
  | Jo l, None => Some (m, if ovf (fl m) then Some l else None)
  | CmpJ w x y c l, None =>
      match cmpval w m (OReg x), cmpval w m y with
      | Some u, Some v => let sx := if w then sx64 else sx32 in
          Some (setf m (fl3 (u <? v) (negb ((if w then fits64 else fits32) (sx u - sx v))) (u =? v)), if scond_holds w u v c then Some l else None)
      | _, _ => None
      end
  | Callf f, None =>
      let a := (regs m RSP - 8) mod B in
      if a mod 8 =? 0 then match f (setr (setm m a ra) RSP a) with Some m' => Some (m', None) | None => None end else None
  | TRet, None => Some (m, Some l_ret)
  | _, None => match texec i m with Some m' => Some (m', None) | None => None end
  end.
Fixpoint trun (code : list tinstr) (s : mach * option label) : option (mach * option label) :=
  match code with [] => Some s | i :: code => match tstep i s with Some s => trun code s | None => None end end.
(** a routine with all its "ret"; running past its end is an error *)
Definition tcall (body : list tinstr) (m : mach) : option mach :=
  match trun body (m, None) with
  | Some (m', Some l) =>
      if Nat.eqb l l_ret && (regs m' RSP =? regs m RSP) && (mem m' (regs m RSP) =? mem m (regs m RSP)) then Some (setr m' RSP ((regs m RSP + 8) mod B)) else None
  | _ => None
  end.

(** ** The code *)
Variable n : nat.
Variable opt : bool.
Definition gencall (c : option (list instr)) : mach -> option mach := match c with Some code => call lay code | None => fun _ => None end.
Definition f_rawMMul := gencall (asm_mul n opt).
Definition f_rawMMul1 := gencall (asm_mul1 n opt).
Definition f_rawMSquare := gencall (asm_square n opt).
Definition f_rawFromMontgomery := gencall (asm_from n opt).
Definition f_rawAdd := call lay (asm_rawAdd n).
Definition f_rawSub := call lay (asm_rawSub n).
Definition f_rawNeg := call lay (asm_rawNeg n).
Definition f_copy := call lay (asm_copy n).

(** short forms *)
Definition mov d s := X (I Imov [OReg d; OReg s]).
Definition ld d b off := X (I Imov [OReg d; OMem (BReg b) off]).
Definition st b off s := X (I Imov [OMem (BReg b) off; OReg s]).
Definition movi d v := X (I Imov [OReg d; OImm v]).
Definition addi d v := X (I Iadd [OReg d; OImm v]).
Definition subi d v := X (I Isub [OReg d; OImm v]).
Definition push r := X (Push r).
Definition pop r := X (Pop r).
Definition jc (l : nat) := X (J Cc l).
Definition jnc (l : nat) := X (J Cnc l).
Definition jz (l : nat) := X (J Cz l).
Definition jnz (l : nat) := X (J Cnz l).
Definition cmpi r v := X (I Icmp [OReg r; OImm v]).
Definition jmp (l : nat) := X (Jmp l).
Definition lab (l : nat) := X (Lab l).
Definition zero r := X (I Ixor [OReg r; OReg r]).

(** utils.asm.ejs lines 1-6 *)
Definition setTypeDest (t : Z) : list tinstr := [Mov8 R11 t; Shl32 R11 24; St32hi RDI R11].
(** utils.asm.ejs lines 9-38, 40-71, 85-114: the conversions of the operands to a
    temporary element on the stack; [f] is the conversion *)
Definition conv_a (f : mach -> option mach) : list tinstr :=
  [mov R8 RDI; subi RSP (Z.of_nat (n + 1) * 8); mov RDI RSP; push RDX; push R8; Callf f; mov RSI RDI; pop RDI; pop RDX].
Definition conv_b (f : mach -> option mach) : list tinstr :=
  [mov R8 RDI; subi RSP (Z.of_nat (n + 1) * 8); mov RDI RSP; push RSI; mov RSI RDX; push R8; Callf f; mov RDX RDI; pop RDI; pop RSI].

(** copy.asm.ejs, rawCopyS2L *)
Definition l_neg' : label := 10%nat.
Definition asm_rawCopyS2L : list tinstr :=
  [Mov8 RAX 128; Shl64 RAX 56; st RDI 0 RAX; CmpJ true RSI (OImm 0) Cs l_neg'] ++
  map X ([I Imov [at8 RDI 1; OReg RSI]; I Ixor [OReg RAX; OReg RAX]] ++ map (fun i => I Imov [at8 RDI (i + 1); OReg RAX]) (seq 1 (n - 1))) ++ [TRet] ++
  [lab l_neg'] ++
  map X ([I Iadd [OReg RSI; q8 0]; I Imov [at8 RDI 1; OReg RSI]; I Imov [OReg RSI; OImm (B - 1)]] ++
  flat_map (fun i => [I Imov [OReg RAX; OReg RSI]; I Iadc [OReg RAX; q8 i]; I Imov [at8 RDI (i + 1); OReg RAX]]) (seq 1 (n - 1))) ++ [TRet].
Definition f_rawCopyS2L := tcall asm_rawCopyS2L.

(** montgomery.asm.ejs, rawToMontgomery *)
Definition asm_rawToMontgomery : list tinstr := [push RDX; Lea RDX (BSym SR2) 0; Callf f_rawMMul; pop RDX; TRet].
Definition f_rawToMontgomery := tcall asm_rawToMontgomery.
(** montgomery.asm.ejs, toMontgomery, toNormal, toLongNormal *)
Definition asm_toMontgomery : list tinstr :=
  [ld RAX RSI 0; Bt RAX 62; jc 12; Bt RAX 63; jc 11] ++
  [Movsx RDX RAX; st RDI 0 RDX; addi RDI 8; Lea RSI (BSym SR2) 0; CmpJ true RDX (OImm 0) Cs 10%nat] ++
  [Callf f_rawMMul1; subi RDI 8] ++ setTypeDest 64 ++ [TRet] ++
  [lab 10; Neg64 RDX; Callf f_rawMMul1; mov RSI RDI; Callf f_rawNeg; subi RDI 8] ++ setTypeDest 64 ++ [TRet] ++
  [lab 11; st RDI 0 RAX; addi RDI 8; addi RSI 8; Lea RDX (BSym SR2) 0; Callf f_rawMMul; subi RSI 8; subi RDI 8] ++ setTypeDest 192 ++ [TRet] ++
  [lab 12; Callf f_copy; TRet].
Definition f_toMontgomery := tcall asm_toMontgomery.
Definition fromMont : list tinstr := [addi RDI 8; addi RSI 8; Callf f_rawFromMontgomery; subi RSI 8; subi RDI 8] ++ setTypeDest 128 ++ [TRet].
Definition asm_toNormal : list tinstr :=
  [ld RAX RSI 0; Bt RAX 62; jnc 10; Bt RAX 63; jnc 10] ++ fromMont ++ [lab 10; Callf f_copy; TRet].
Definition f_toNormal := tcall asm_toNormal.
Definition asm_toLongNormal : list tinstr :=
  [ld RAX RSI 0; Bt RAX 63; jnc 11; Bt RAX 62; jc 10; Callf f_copy; TRet] ++
  [lab 10] ++ fromMont ++
  [lab 11; mov R8 RSI; Movsx RSI RAX; Callf f_rawCopyS2L; mov RSI R8] ++ setTypeDest 128 ++ [TRet].
Definition f_toLongNormal := tcall asm_toLongNormal.

(** add.asm.ejs lines 248-274; as in X86Raw.v the final ret is left to [call] *)
Definition asm_rawAddLS : list instr :=
  [I Iadd [OReg RDX; at8 RSI 0]; I Imov [at8 RDI 0; OReg RDX]] ++
  flat_map (fun i => [I Imov [OReg RDX; OImm 0]; I Iadc [OReg RDX; at8 RSI i]; I Imov [at8 RDI i; OReg RDX]]) (seq 1 (n - 1)) ++
  [J Cc l_sq] ++
  flat_map (fun i => [I Imov [OReg RAX; at8 RDI (n - i - 1)]; I Icmp [OReg RAX; q8 (n - i - 1)]; J Cc l_done; J Cnz l_sq]) (seq 0 n) ++
  [Lab l_sq] ++ asm_subq n ++ [Lab l_done].
Definition f_rawAddLS := call lay asm_rawAddLS.
(** sub.asm.ejs lines 216-237 *)
Definition asm_rawSubLS : list instr :=
  [I Imov [OReg RAX; at8 RSI 0]; I Isub [OReg RAX; OReg RDX]; I Imov [at8 RDI 0; OReg RAX]; I Imov [OReg RDX; OImm 0]] ++
  flat_map (fun i => [I Imov [OReg RAX; at8 RSI i]; I Isbb [OReg RAX; OReg RDX]; I Imov [at8 RDI i; OReg RAX]]) (seq 1 (n - 1)) ++
  [J Cnc l_done] ++ asm_addq n ++ [Lab l_done].
Definition f_rawSubLS := call lay asm_rawSubLS.
(** sub.asm.ejs lines 253-272 *)
Definition asm_rawSubSL : list instr :=
  [I Isub [OReg RSI; at8 RDX 0]; I Imov [at8 RDI 0; OReg RSI]] ++
  flat_map (fun i => [I Imov [OReg RAX; OImm 0]; I Isbb [OReg RAX; at8 RDX i]; I Imov [at8 RDI i; OReg RAX]]) (seq 1 (n - 1)) ++
  [J Cnc l_done] ++ asm_addq n ++ [Lab l_done].
Definition f_rawSubSL := call lay asm_rawSubSL.
(** sub.asm.ejs lines 319-350 *)
Definition asm_rawNegLS : list tinstr :=
  map X ([I Imov [OReg RAX; q8 0]; I Isub [OReg RAX; OReg RDX]; I Imov [at8 RDI 0; OReg RAX]] ++
  flat_map (fun i => [I Imov [OReg RAX; q8 i]; I Isbb [OReg RAX; OImm 0]; I Imov [at8 RDI i; OReg RAX]]) (seq 1 (n - 1))) ++
  [SetcDl] ++
  map X (flat_map (fun i => [I Imov [OReg RAX; at8 RDI i]; I (subOp i) [OReg RAX; at8 RSI i]; I Imov [at8 RDI i; OReg RAX]]) (seq 0 n)) ++
  [SetcDh; OrDlDh; X (J Cz l_done)] ++ map X (asm_addq n) ++ [lab l_done; TRet].
Definition f_rawNegLS := tcall asm_rawNegLS.

(** neg.asm.ejs lines 1-51 *)
Definition asm_neg : list tinstr :=
  [ld RAX RSI 0; Bt RAX 63; jc 11] ++
  [Neg32 RAX; Jo 10%nat; st RDI 0 RAX; TRet] ++
  [lab 10; push RSI; Movsx RSI RAX; Neg64 RSI; Callf f_rawCopyS2L; pop RSI; TRet] ++
  [lab 11; st RDI 0 RAX; addi RDI 8; addi RSI 8; Callf f_rawNeg; subi RDI 8; subi RSI 8; TRet].
Definition f_neg := tcall asm_neg.

(** add.asm.ejs lines 1-195, sub.asm.ejs lines 1-201 *)
Definition leaveRet : list tinstr := [mov RSP RBP; pop RDX; pop RSI; pop RBP; TRet].
Definition enterOp : list tinstr := [push RBP; push RSI; push RDX; mov RBP RSP].
Definition opL1L2 (f : mach -> option mach) : list tinstr := [addi RDI 8; addi RSI 8; addi RDX 8; Callf f; subi RDI 8; subi RSI 8] ++ leaveRet.
Definition opL1S2 (neg pos : mach -> option mach) (l : nat) : list tinstr :=
  [addi RSI 8; Movsx RDX RCX; addi RDI 8; CmpJ true RDX (OImm 0) Cns l; Neg64 RDX; Callf neg; subi RDI 8; subi RSI 8] ++ leaveRet ++
  [lab l; Callf pos; subi RDI 8; subi RSI 8] ++ leaveRet.
Definition addS1L2 (l : nat) : list tinstr :=
  [Lea RSI (BReg RDX) 8; Movsx RDX RAX; addi RDI 8; CmpJ true RDX (OImm 0) Cns l; Neg64 RDX; Callf f_rawSubLS; subi RDI 8; subi RSI 8] ++ leaveRet ++
  [lab l; Callf f_rawAddLS; subi RDI 8; subi RSI 8] ++ leaveRet.
Definition subS1L2 (l : nat) : list tinstr :=
  [CmpJ false RAX (OImm 0) Cs l; push RSI; addi RDI 8; Movsx RSI RAX; addi RDX 8; Callf f_rawSubSL; subi RDI 8; pop RSI] ++ leaveRet ++
  [lab l; push RSI; Lea RSI (BReg RDX) 8; Movsx RDX RAX; addi RDI 8; Neg64 RDX; Callf f_rawNegLS; subi RDI 8; pop RSI] ++ leaveRet.
Definition opS1S2 (op32 : reg -> reg -> tinstr) (op64 : iname) (l : nat) : list tinstr :=
  [zero RDX; Mov32 RDX RAX; op32 RDX RCX; Jo l; st RDI 0 RDX] ++ leaveRet ++
  [lab l; push RSI; Movsx RSI RAX; Movsx RDX RCX; X (I op64 [OReg RSI; OReg RDX]); Callf f_rawCopyS2L; pop RSI] ++ leaveRet.
Definition asm_addsub (S1S2 L1S2 S1L2 : label -> list tinstr) (ll : mach -> option mach) : list tinstr :=
  enterOp ++ [ld RAX RSI 0; ld RCX RDX 0; Bt RAX 63; jc 20; Bt RCX 63; jc 30] ++
  S1S2 10%nat ++
  [lab 20; Bt RCX 63; jc 40; Bt RAX 62; jc 21] ++
  setTypeDest 128 ++ L1S2 11%nat ++
  [lab 21; Bt RCX 62; jc 22] ++ setTypeDest 192 ++ conv_b f_toMontgomery ++ opL1L2 ll ++
  [lab 22] ++ setTypeDest 192 ++ opL1L2 ll ++
  [lab 30; Bt RCX 62; jc 31] ++ setTypeDest 128 ++ S1L2 12%nat ++
  [lab 31; Bt RAX 62; jc 32] ++ setTypeDest 192 ++ conv_a f_toMontgomery ++ opL1L2 ll ++
  [lab 32] ++ setTypeDest 192 ++ opL1L2 ll ++
  [lab 40; Bt RAX 62; jc 42; Bt RCX 62; jc 41] ++ setTypeDest 128 ++ opL1L2 ll ++
  [lab 41] ++ setTypeDest 192 ++ conv_a f_toMontgomery ++ opL1L2 ll ++
  [lab 42; Bt RCX 62; jc 43] ++ setTypeDest 192 ++ conv_b f_toMontgomery ++ opL1L2 ll ++
  [lab 43] ++ setTypeDest 192 ++ opL1L2 ll.
Definition asm_add : list tinstr := asm_addsub (opS1S2 Add32 Iadd) (opL1S2 f_rawSubLS f_rawAddLS) addS1L2 f_rawAdd.
Definition asm_sub : list tinstr := asm_addsub (opS1S2 Sub32 Isub) (opL1S2 f_rawAddLS f_rawSubLS) subS1L2 f_rawSub.
Definition f_add := tcall asm_add.
Definition f_sub := tcall asm_sub.

(** mul.asm.ejs *)
Definition mulS1 (load : list tinstr) (l done : nat) : list tinstr :=
  [push RSI] ++ load ++ [addi RDI 8; CmpJ true RDX (OImm 0) Cns l; Neg64 RDX; Callf f_rawMMul1; mov RSI RDI; Callf f_rawNeg; subi RDI 8; pop RSI; jmp done;
   lab l; Callf f_rawMMul1; subi RDI 8; pop RSI; lab done].
Definition mulL1S2 := mulS1 [addi RSI 8; Movsx RDX R9].
Definition mulS1L2 := mulS1 [Lea RSI (BReg RDX) 8; Movsx RDX R8].
Definition mulL1L2 : list tinstr := [addi RDI 8; addi RSI 8; addi RDX 8; Callf f_rawMMul; subi RDI 8; subi RSI 8].
Definition squareL1 : list tinstr := [addi RDI 8; addi RSI 8; Callf f_rawMSquare; subi RDI 8; subi RSI 8].
Definition mulR3 : list tinstr := [push RSI; addi RDI 8; mov RSI RDI; Lea RDX (BSym SR3) 0; Callf f_rawMMul; subi RDI 8; pop RSI].
Definition asm_squareT : list tinstr :=
  [ld R8 RSI 0; Bt R8 63; jc 11] ++
  [zero RAX; Mov32 RAX R8; Imul32 RAX; Jo 10%nat; st RDI 0 RAX; lab 10; push RSI; Movsx RAX R8; Imul64 RAX; mov RSI RAX; Callf f_rawCopyS2L; pop RSI; TRet] ++
  [lab 11; Bt R8 62; jc 12] ++ setTypeDest 192 ++ squareL1 ++ mulR3 ++ [TRet] ++
  [lab 12] ++ setTypeDest 192 ++ squareL1 ++ [TRet].
Definition asm_mulT : list tinstr :=
  [ld R8 RSI 0; ld R9 RDX 0; Bt R8 63; jc 20; Bt R9 63; jc 30] ++
  [zero RAX; Mov32 RAX R8; Imul32 R9; Jo 10%nat; st RDI 0 RAX; lab 10; push RSI; Movsx RAX R8; Movsx RCX R9; Imul64 RCX; mov RSI RAX; Callf f_rawCopyS2L; pop RSI; TRet] ++
  [lab 20; Bt R9 63; jc 40; Bt R8 62; jc 22; Bt R9 62; jc 21] ++
  setTypeDest 192 ++ mulL1S2 11 12 ++ mulR3 ++ [TRet] ++
  [lab 21] ++ setTypeDest 128 ++ mulL1L2 ++ [TRet] ++
  [lab 22; Bt R9 62; jc 23] ++ setTypeDest 128 ++ mulL1S2 13 14 ++ [TRet] ++
  [lab 23] ++ setTypeDest 192 ++ mulL1L2 ++ [TRet] ++
  [lab 30; Bt R8 62; jc 32; Bt R9 62; jc 31] ++
  setTypeDest 192 ++ mulS1L2 15 16 ++ mulR3 ++ [TRet] ++
  [lab 31] ++ setTypeDest 128 ++ mulS1L2 17 18 ++ [TRet] ++
  [lab 32; Bt R9 62; jc 33] ++ setTypeDest 128 ++ mulL1L2 ++ [TRet] ++
  [lab 33] ++ setTypeDest 192 ++ mulL1L2 ++ [TRet] ++
  [lab 40; Bt R8 62; jc 42; Bt R9 62; jc 41] ++ setTypeDest 192 ++ mulL1L2 ++ mulR3 ++ [TRet] ++
  [lab 41] ++ setTypeDest 128 ++ mulL1L2 ++ [TRet] ++
  [lab 42; Bt R9 62; jc 43] ++ setTypeDest 128 ++ mulL1L2 ++ [TRet] ++
  [lab 43] ++ setTypeDest 192 ++ mulL1L2 ++ [TRet].
Definition f_mul := tcall asm_mulT.
Definition f_square := tcall asm_squareT.

(** logicalops.asm.ejs *)
Definition isTrue (res src : reg) (l : nat) : list tinstr :=
  [ld RAX src 0; Bt RAX 63; jc l; Test32 RAX; X (J Cz (l + 1)%nat); jmp (l + 2)%nat; lab l] ++
  map X (flat_map (fun i => [I Imov [OReg RAX; at8 src (i + 1)]; I Itest [OReg RAX; OReg RAX]; J Cnz (l + 2)%nat]) (seq 0 n)) ++
  [lab (l + 1)%nat; movi res 0; jmp (l + 3)%nat; lab (l + 2)%nat; movi res 1; lab (l + 3)%nat].
Definition asm_logical (op : reg -> reg -> tinstr) : list tinstr := isTrue R8 RSI 10 ++ isTrue RCX RDX 20 ++ [op RCX R8; st RDI 0 RCX; TRet].
Definition asm_land := asm_logical And64.
Definition asm_lor := asm_logical Or64.
Definition asm_lnot : list tinstr :=
  isTrue RCX RSI 10 ++ [X (I Itest [OReg RCX; OReg RCX]); X (J Cz 20%nat); X (I Imov [OMem (BReg RDI) 0; OImm 0]); TRet; lab 20; X (I Imov [OMem (BReg RDI) 0; OImm 1]); TRet].
Definition asm_isTrue : list tinstr := isTrue RAX RDI 10 ++ [TRet].
Definition f_land := tcall asm_land.
Definition f_lor := tcall asm_lor.
Definition f_lnot := tcall asm_lnot.
Definition f_isTrue := tcall asm_isTrue.

(** cmpops.asm.ejs lines 1-12 *)
Definition half8 (i : nat) : opd := OMem (BSym Shalf) (Z.of_nat i * 8).
Definition signL (r : reg) (pos neg : nat) : list instr :=
  flat_map (fun i => [I Imov [OReg RAX; at8 r (n - i)]; I Icmp [half8 (n - i - 1); OReg RAX]; J Cc neg; if (0 <? n - i - 1)%nat then J Cnz pos else Jmp pos]) (seq 0 n).
Definition cmpraw (jumps : nat -> list instr) : list instr :=
  flat_map (fun i => [I Imov [OReg RAX; at8 RSI (n - i)]; I Icmp [at8 RDX (n - i); OReg RAX]] ++ jumps (n - i - 1)%nat) (seq 0 n).
(** lines 26-138 and 153-263: rgt and rlt; labels 50: p1, 51: n1, 52: raw, 53: ret0, 54: ret1 *)
Definition cmpHead (s1s2 : scond) : list tinstr :=
  enterOp ++ [ld R8 RSI 0; ld R9 RDX 0; Bt R8 63; jc 20; Bt R9 63; jc 30; CmpJ false R8 (OReg R9) s1s2 54%nat; jmp 53].
Definition cmpOrd : list tinstr :=
  [lab 20; Bt R9 63; jc 40; Bt R8 62; jc 21] ++ conv_b f_toLongNormal ++ [jmp 49] ++
  [lab 21] ++ conv_b f_toLongNormal ++ conv_a f_toNormal ++ [jmp 49] ++
  [lab 30; Bt R9 62; jc 31] ++ conv_a f_toLongNormal ++ [jmp 49] ++
  [lab 31] ++ conv_a f_toLongNormal ++ conv_b f_toNormal ++ [jmp 49] ++
  [lab 40; Bt R8 62; jc 42; Bt R9 62; jc 41; jmp 49] ++
  [lab 41] ++ conv_b f_toNormal ++ [jmp 49] ++
  [lab 42; Bt R9 62; jc 43] ++ conv_a f_toNormal ++ [jmp 49] ++
  [lab 43] ++ conv_a f_toNormal ++ conv_b f_toNormal ++ [jmp 49] ++
  [lab 49].
Definition ret0 : list tinstr := [lab 53; zero RAX] ++ leaveRet.
Definition ret1 : list tinstr := [lab 54; movi RAX 1] ++ leaveRet.
Definition asm_rgt : list tinstr :=
  cmpHead Cg ++ cmpOrd ++ map X (signL RSI 50 51) ++ [lab 50] ++ map X (signL RDX 52 54) ++ [lab 51] ++ map X (signL RDX 53 52) ++
  [lab 52] ++ map X (cmpraw (fun i => J Cc 54%nat :: if (0 <? i)%nat then [J Cnz 53%nat] else [])) ++ ret0 ++ ret1.
Definition asm_rlt : list tinstr :=
  cmpHead Cl ++ cmpOrd ++ map X (signL RSI 50 51) ++ [lab 50] ++ map X (signL RDX 52 53) ++ [lab 51] ++ map X (signL RDX 54 52) ++
  [lab 52] ++ map X (cmpraw (fun i => [J Cc 53%nat; J Cnz 54%nat])) ++ ret0 ++ ret1.
(** lines 278-375 *)
Definition asm_req : list tinstr :=
  cmpHead Ce ++
  [lab 20; Bt R9 63; jc 40; Bt R8 62; jc 21] ++ conv_b f_toLongNormal ++ [jmp 49] ++
  [lab 21] ++ conv_b f_toMontgomery ++ [jmp 49] ++
  [lab 30; Bt R9 62; jc 31] ++ conv_a f_toLongNormal ++ [jmp 49] ++
  [lab 31] ++ conv_a f_toMontgomery ++ [jmp 49] ++
  [lab 40; Bt R8 62; jc 42; Bt R9 62; jc 41; jmp 49] ++
  [lab 41] ++ conv_a f_toMontgomery ++ [jmp 49] ++
  [lab 42; Bt R9 62; jc 43] ++ conv_b f_toMontgomery ++ [jmp 49] ++
  [lab 43; jmp 49] ++
  [lab 49] ++ map X (flat_map (fun i => [I Imov [OReg RAX; at8 RSI (i + 1)]; I Icmp [at8 RDX (i + 1); OReg RAX]; J Cnz 53%nat]) (seq 0 n)) ++ ret1 ++ ret0.
Definition f_rgt := tcall asm_rgt.
Definition f_rlt := tcall asm_rlt.
Definition f_req := tcall asm_req.
(** lines 389-475 *)
Definition asm_cmp (f : mach -> option mach) (flip : bool) : list tinstr :=
  [Callf f] ++ (if flip then [X (I Ixor [OReg RAX; OImm 1])] else []) ++ [st RDI 0 RAX; TRet].
Definition f_gt := tcall (asm_cmp f_rgt false).
Definition f_lt := tcall (asm_cmp f_rlt false).
Definition f_eq := tcall (asm_cmp f_req false).
Definition f_neq := tcall (asm_cmp f_req true).
Definition f_geq := tcall (asm_cmp f_rlt true).
Definition f_leq := tcall (asm_cmp f_rgt true).

(** binops.asm.ejs lines 1-19 ([o] = 1, rdi is the element) and 21-39 ([o] = 0, rdi is
    its first limb) *)
Definition binSubQ (o : nat) : list instr :=
  flat_map (fun i => [I Imov [OReg RAX; at8 RDI (n - i - 1 + o)]; I Icmp [OReg RAX; q8 (n - i - 1)]; J Cc l_done; J Cnz l_sq]) (seq 0 n) ++
  [Lab l_sq] ++ flat_map (fun i => [I Imov [OReg RAX; q8 i]; I (subOp i) [at8 RDI (i + o); OReg RAX]]) (seq 0 n) ++ [Lab l_done].
Definition lboMask : list tinstr := [Bit Band RAX (OMem (BSym SlboMask) 0)].
Definition maskLast (i : nat) : list tinstr := if Nat.eqb i (n - 1) then lboMask else [].
Definition binEnd : list tinstr := map X (binSubQ 1) ++ leaveRet.
(** lines 126-142 *)
Definition binL1L2 (o : bitop) : list tinstr :=
  flat_map (fun i => [X (I Imov [OReg RAX; at8 RSI (i + 1)]); Bit o RAX (at8 RDX (i + 1))] ++ maskLast i ++ [X (I Imov [at8 RDI (i + 1); OReg RAX])]) (seq 0 n) ++ binEnd.
(** the limbs above the first one of lines 69-124 *)
Definition binHigh (o : bitop) (src : reg) : list tinstr :=
  flat_map (fun i => [zero RAX; Bit o RAX (at8 src (i + 1))] ++ maskLast i ++ [X (I Imov [at8 RDI (i + 1); OReg RAX])]) (seq 1 (n - 1)) ++ binEnd.
(** lines 40-65 *)
Definition binS1S2 (o : bitop) (l : nat) : list tinstr :=
  [CmpJ false RAX (OImm 0) Cs l; CmpJ false RCX (OImm 0) Cs l; zero RDX; Mov32 RDX RAX; Bit32 o RDX RCX; st RDI 0 RDX] ++ leaveRet ++
  [lab l] ++ setTypeDest 128 ++ conv_b f_toLongNormal ++ conv_a f_toLongNormal ++ binL1L2 o.
(** lines 67-94 *)
Definition binS1L2 (o : bitop) (l : nat) : list tinstr :=
  [Ld32 RAX RSI; CmpJ false RAX (OImm 0) Cs l; Bit o RAX (at8 RDX 1); X (I Imov [at8 RDI 1; OReg RAX])] ++ binHigh o RDX ++
  [lab l] ++ conv_a f_toLongNormal ++ setTypeDest 128 ++ binL1L2 o.
(** lines 96-124 *)
Definition binL1S2 (o : bitop) (l : nat) : list tinstr :=
  [ld RCX RDX 0; CmpJ false RCX (OImm 0) Cs l; Movsx RAX RCX; Bit o RAX (at8 RSI 1); X (I Imov [at8 RDI 1; OReg RAX])] ++ binHigh o RSI ++
  [lab l] ++ conv_b f_toLongNormal ++ setTypeDest 128 ++ binL1L2 o.
(** lines 145-230: band, bor, bxor *)
Definition asm_bin (o : bitop) : list tinstr :=
  enterOp ++ [ld RAX RSI 0; ld RCX RDX 0; Bt RAX 63; jc 20; Bt RCX 63; jc 30] ++ binS1S2 o 10 ++
  [lab 20; Bt RCX 63; jc 40; Bt RAX 62; jc 21] ++ setTypeDest 128 ++ binL1S2 o 11 ++
  [lab 21] ++ setTypeDest 128 ++ conv_a f_toNormal ++ binL1S2 o 12 ++
  [lab 30; Bt RCX 62; jc 31] ++ setTypeDest 128 ++ binS1L2 o 13 ++
  [lab 31] ++ setTypeDest 128 ++ conv_b f_toNormal ++ binS1L2 o 14 ++
  [lab 40; Bt RAX 62; jc 42; Bt RCX 62; jc 41] ++ setTypeDest 128 ++ binL1L2 o ++
  [lab 41] ++ setTypeDest 128 ++ conv_b f_toNormal ++ binL1L2 o ++
  [lab 42; Bt RCX 62; jc 43] ++ setTypeDest 128 ++ conv_a f_toNormal ++ binL1L2 o ++
  [lab 43] ++ setTypeDest 128 ++ conv_a f_toNormal ++ conv_b f_toNormal ++ binL1L2 o.
Definition f_bin (o : bitop) := tcall (asm_bin o).
(** lines 238-285: bnot *)
Definition asm_bnot : list tinstr :=
  enterOp ++ setTypeDest 128 ++ [ld RAX RSI 0; Bt RAX 63; jc 10] ++ conv_a f_toLongNormal ++ [jmp 11] ++
  [lab 10; Bt RAX 62; jnc 11] ++ conv_a f_toNormal ++ [lab 11] ++
  flat_map (fun i => [X (I Imov [OReg RAX; at8 RSI (i + 1)]); Not64 RAX] ++ maskLast i ++ [X (I Imov [at8 RDI (i + 1); OReg RAX])]) (seq 0 n) ++ binEnd.
Definition f_bnot := tcall asm_bnot.

(** *** Shifts.  [bl] is the bit length of q. *)
Variable bl : Z.
Definition l_if2 : label := 72%nat.
Definition l_else : label := 73%nat.
Definition l_end : label := 74%nat.
Definition o8 (i : nat) : Z := Z.of_nat i * 8.
Definition idx d i := Sh (LdIdx d RSI (o8 i)).
(** the jumps to rawCopy and rawZero: their code, with its ret, follows the shift *)
Definition rawHead : list tinstr := [cmpi RDX 0; jz 70; cmpi RDX bl; jnc 71].
Definition rawTails : list tinstr := [lab 70] ++ map X (asm_rawCopy n) ++ [TRet; lab 71] ++ map X (asm_rawZero n) ++ [TRet].
(** lines 323-352 *)
Definition shrLimb (i : nat) : list tinstr :=
  [cmpi R8 (Z.of_nat (n - 1 - i)); jnc l_if2; idx RAX i; Sh (ShrCl RAX); And64 RAX R9; idx R11 (i + 1); Sh RolCx8; Sh (ShlCl R11); Sh RolCx8; And64 R11 R10; Or64 RAX R11; st RDI (o8 i) RAX; jmp l_end;
   lab l_if2; jnz l_else; idx RAX i; Sh (ShrCl RAX); And64 RAX R9; st RDI (o8 i) RAX; jmp l_end;
   lab l_else; zero RAX; st RDI (o8 i) RAX; lab l_end].
(** lines 357-368 *)
Definition shrWord (i : nat) : list tinstr :=
  [CmpJ true R8 (OImm (Z.of_nat (n - 1 - i))) Ca l_if2; idx RAX i; st RDI (o8 i) RAX; jmp l_end; lab l_if2; zero RAX; st RDI (o8 i) RAX; lab l_end].
(** lines 298-369 *)
Definition asm_rawShr : list tinstr :=
  rawHead ++ [mov R8 RDX; Sh (ShrI R8 6); mov RCX RDX; Bit Band RCX (OImm 63); jz 75; Sh (MovCh 64); Sh SubChCl] ++
  [movi R9 1; Sh RolCx8; Sh (ShlCl R9); Sh RolCx8; subi R9 1; mov R10 R9; Not64 R10] ++ flat_map shrLimb (seq 0 n) ++ [TRet; lab 75] ++
  flat_map shrWord (seq 0 n) ++ [TRet] ++ rawTails.
Definition f_rawShr := tcall asm_rawShr.
(** lines 410-447 *)
Definition shlLimb (i : nat) : list tinstr :=
  [cmpi R8 (Z.of_nat i); jnc l_if2; ld RAX RDX (o8 i); Sh (ShlCl RAX); And64 RAX R9; ld R11 RDX (o8 i - 8); Sh RolCx8; Sh (ShrCl R11); Sh RolCx8; And64 R11 R10; Or64 RAX R11] ++ maskLast i ++ [st RDI (o8 i) RAX; jmp l_end;
   lab l_if2; jnz l_else; ld RAX RDX (o8 i); Sh (ShlCl RAX); And64 RAX R9] ++ maskLast i ++ [st RDI (o8 i) RAX; jmp l_end;
   lab l_else; zero RAX; st RDI (o8 i) RAX; lab l_end].
(** lines 458-470 *)
Definition shlWord (i : nat) : list tinstr :=
  [CmpJ true R8 (OImm (Z.of_nat i)) Ca l_if2; ld RAX RDX (o8 i)] ++ maskLast i ++ [st RDI (o8 i) RAX; jmp l_end; lab l_if2; zero RAX; st RDI (o8 i) RAX; lab l_end].
Definition shlBase : list tinstr := [mov RDX RSI; mov RAX R8; Shl64 RAX 3; X (I Isub [OReg RDX; OReg RAX])].
(** lines 382-472 *)
Definition asm_rawShl : list tinstr :=
  rawHead ++ [mov R8 RDX; Sh (ShrI R8 6); mov RCX RDX; Bit Band RCX (OImm 63); jz 75; Sh (MovCh 64); Sh SubChCl] ++
  [movi R10 1; Sh (ShlCl R10); subi R10 1; mov R9 R10; Not64 R9] ++ shlBase ++ flat_map shlLimb (rev (seq 0 n)) ++ map X (binSubQ 0) ++ [TRet; lab 75] ++
  shlBase ++ flat_map shlWord (rev (seq 0 n)) ++ map X (binSubQ 0) ++ [TRet] ++ rawTails.
Definition f_rawShl := tcall asm_rawShl.

(** lines 477-531; the jumps to do_shl, do_shr and setzero are those to [lp], [ln], [lz] *)
Definition parseShift (lp ln lz : nat) : list tinstr :=
  [ld RCX RDX 0; Bt RCX 63; jnc 80; Bt RCX 62; jnc 81] ++ conv_b f_toNormal ++
  [lab 81; ld RCX RDX 8; cmpi RCX bl; jnc 82; zero RAX] ++ flat_map (fun i => [X (I Icmp [at8 RDX (i + 1); OReg RAX]); jnz 82]) (seq 1 (n - 1)) ++ [mov RDX RCX; jmp lp] ++
  [lab 82; X (I Imov [OReg RCX; q8 0]); X (I Isub [OReg RCX; at8 RDX 1]); cmpi RCX bl; jnc lz; X (I Imov [OReg RAX; q8 0]); X (I Isub [OReg RAX; at8 RDX 1])] ++
  flat_map (fun i => [X (I Imov [OReg RAX; q8 i]); X (I Isbb [OReg RAX; at8 RDX (i + 1)]); jnz lz]) (seq 1 (n - 1)) ++ [mov RDX RCX; jmp ln] ++
  [lab 80; CmpJ false RCX (OImm 0) Cl 83%nat; CmpJ false RCX (OImm bl) Cae lz; Movsx RDX RCX; jmp lp;
   lab 83; Neg32 RCX; CmpJ false RCX (OImm bl) Cae lz; Movsx RDX RCX; jmp ln].
Definition enter4 : list tinstr := [push RBP; push RSI; push RDI; push RDX; mov RBP RSP].
Definition leave4 : list tinstr := [mov RSP RBP; pop RDX; pop RDI; pop RSI; pop RBP; TRet].
Definition callShift (f : mach -> option mach) : list tinstr := setTypeDest 128 ++ [addi RDI 8; addi RSI 8; Callf f] ++ leave4.
(** lines 577-624 *)
Definition do_shl : list tinstr :=
  [lab 90; ld RCX RSI 0; Bt RCX 63; jc 92; Movsx RAX RCX; CmpJ true RAX (OImm 0) Ce 99%nat; CmpJ true RAX (OImm 0) Cl 91%nat; CmpJ true RDX (OImm 31) Cae 91%nat;
   Sh MovClDl; Sh (ShlCl RAX); mov RCX RAX; Sh (ShrI RCX 31); jnz 91; st RDI 0 RAX] ++ leave4 ++
  [lab 91] ++ conv_a f_toLongNormal ++ [jmp 93; lab 92; Bt RCX 62; jnc 93] ++ conv_a f_toNormal ++ [lab 93] ++ callShift f_rawShl.
(** lines 628-668, and setzero (670-679) *)
Definition do_shr : list tinstr :=
  [lab 94; ld RCX RSI 0; Bt RCX 63; jc 96; Movsx RAX RCX; CmpJ true RAX (OImm 0) Ce 99%nat; CmpJ true RAX (OImm 0) Cl 95%nat; CmpJ true RDX (OImm 31) Cae 99%nat;
   Sh MovClDl; Sh (ShrCl RAX); st RDI 0 RAX] ++ leave4 ++
  [lab 95] ++ conv_a f_toLongNormal ++ [lab 96; Bt RCX 62; jnc 97] ++ conv_a f_toNormal ++ [lab 97] ++ callShift f_rawShr.
Definition setzero : list tinstr := [lab 99; zero RAX; st RDI 0 RAX] ++ leave4.
(** lines 545-572; shr jumps over the entry of shl *)
Definition asm_shift (lp ln : nat) : list tinstr := enter4 ++ parseShift lp ln 99 ++ do_shl ++ do_shr ++ setzero.
Definition f_shl := tcall (asm_shift 90 94).
Definition f_shr := tcall (asm_shift 94 90).
End TRun.
