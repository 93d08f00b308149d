(** The generator of the x86-64 Montgomery routines: src/asmbuilder.js and
    src/montgomerybuilder.js.

    The calls made on the AsmBuilder are collected as commands ([cmd]), which
    [emit] turns into instructions with the builder's state.  The register
    lists of the constructor are the ones of asmbuilder.js lines 7-8.  [None]: a
    failing assertion or a TypeError of the generator. *)
From Coq Require Import ZArith List Bool Arith.
From Verif Require Import Limbs X86.
Import ListNotations.

(** ** asmbuilder.js *)
Inductive arg := AV (i : nat) | AR (r : reg) | AM (b : base) (off : Z).
Definition availableRegs := [RAX; R8; R9; R10; R11].
Definition pushableRegs := [R12; R13; R14; R15; RBP; RBX].
Record mode := { mI : bool; mO : bool; mR : bool }.
Definition md a b c := {| mI := a; mO := b; mR := c |}.
(** lines 11-23 *)
Definition modes (i : iname) : list mode :=
  match i with
  | Iadcx | Iadox => [md true true true; md true false false]
  | Isub | Isbb => [md true true false; md true false false]
  | Icmp | Itest => [md true false false; md true false false]
  | Imov => [md false true false; md true false false]
  | Imulx => [md false true true; md false true true; md true false false]
  | Ixor => [md true true false; md false true false]
  | Iadd | Iadc => []      (* not in the table *)
  end.
Record wra := { w_reg : reg; w_ref : nat; w_mod : bool }.
Record alloc := { needed : nat; nUsed : nat; avail : list reg; assign : list wra }.
(** constructor, lines 25-53; wrAvailable = null is the empty list here, which
    [flushWr] and [loadWr] reach only if there are references in memory *)
Definition newBuilder (needed : nat) : alloc :=
  let all := (length availableRegs + length pushableRegs)%nat in
  if (all <? needed)%nat then {| needed := needed; nUsed := all - 1; avail := [last pushableRegs RBX]; assign := [] |}
  else {| needed := needed; nUsed := needed; avail := []; assign := [] |}.
Definition pushedRegs (needed : nat) : list reg :=
  let all := (length availableRegs + length pushableRegs)%nat in
  if (all <? needed)%nat then pushableRegs else firstn (needed - length availableRegs) pushableRegs.
Definition regRef (a : alloc) (i : nat) : opd :=
  let na := length availableRegs in
  if (i <? na)%nat then OReg (nth i availableRegs RAX)
  else if (i <? nUsed a)%nat then OReg (nth (i - na) pushableRegs RAX)
  else OMem (BReg RSP) (Z.of_nat (i - nUsed a) * 8).
(** lines 55-71: unshift puts the pushes in reverse order before "sub rsp" *)
Definition header (needed : nat) : list instr :=
  let a := newBuilder needed in
  rev (map Push (pushedRegs needed)) ++ (if (nUsed a <? needed)%nat then [I Isub [OReg RSP; OImm (Z.of_nat (needed - nUsed a) * 8)]] else []).
Definition footer (needed : nat) : list instr :=
  let a := newBuilder needed in
  (if (nUsed a <? needed)%nat then [I Iadd [OReg RSP; OImm (Z.of_nat (needed - nUsed a) * 8)]] else []) ++ map Pop (pushedRegs needed).
Definition set_wr (a : alloc) av asg : alloc := {| needed := needed a; nUsed := nUsed a; avail := av; assign := asg |}.
Definition store (a : alloc) (w : wra) : instr := I Imov [regRef a (w_ref w); OReg (w_reg w)].
(** flushWr, lines 80-91: from the last assignment to the first; with
    removeAssignments each is popped after its store *)
Definition flushWr (a : alloc) (remove : bool) : alloc * list instr :=
  let code := map (store a) (filter w_mod (rev (assign a))) in
  if remove then (set_wr a (avail a ++ map w_reg (rev (assign a))) [], code)
  else (set_wr a (avail a) (map (fun w => {| w_reg := w_reg w; w_ref := w_ref w; w_mod := false |}) (assign a)), code).
Fixpoint take_ref (l : list wra) (ref : nat) : option (wra * list wra) :=
  match l with
  | [] => None
  | w :: l => if (w_ref w =? ref)%nat then Some (w, l) else match take_ref l ref with Some (x, l) => Some (x, w :: l) | None => None end
  end.
(** _loadWr, lines 94-118; the result is the register of the last assignment *)
Definition loadWr (a : alloc) (ref : nat) (loadValue : bool) : option (alloc * list instr * reg) :=
  match take_ref (assign a) ref with
  | Some (w, l) => Some (set_wr a (avail a) (l ++ [w]), [], w_reg w)
  | None =>
    let '(av, asg, code) :=
      match avail a with
      | [] => match assign a with [] => ([], [], []) | w :: l => ([w_reg w], l, if w_mod w then [store a w] else []) end
      | _ => (avail a, assign a, [])
      end in
    match av with
    | [] => None
    | r :: av => Some (set_wr a av (asg ++ [{| w_reg := r; w_ref := ref; w_mod := false |}]),
                       code ++ (if loadValue then [I Imov [OReg r; regRef a ref]] else []), r)
    end
  end.
Definition mark (a : alloc) (ref : nat) : alloc :=
  set_wr a (avail a) (map (fun w => if (w_ref w =? ref)%nat then {| w_reg := w_reg w; w_ref := w_ref w; w_mod := true |} else w) (assign a)).
(** the loop of lines 136-163; [None]: the assertion *)
Fixpoint choose (a : alloc) (ms : list mode) (args : list arg) (i : nat) (dUsed dLoad : option nat) : option (option nat * option nat) :=
  match ms, args with
  | m :: ms, x :: args =>
    match x with
    | AM _ _ => match dUsed, dLoad with
                | Some _, Some _ => None
                | Some u, None => choose a ms args (S i) (Some i) (Some u)
                | None, _ => choose a ms args (S i) (Some i) dLoad
                end
    | AR _ => choose a ms args (S i) dUsed dLoad
    | AV k => if (nUsed a <=? k)%nat then
                if (match dUsed with Some _ => true | None => false end) || mR m
                then match dLoad with Some _ => None | None => choose a ms args (S i) dUsed (Some i) end
                else choose a ms args (S i) (Some i) dLoad
              else choose a ms args (S i) dUsed dLoad
    end
  | _, _ => Some (dUsed, dLoad)
  end.
(** lines 165-179; [ld]: the reference of args[dLoad] *)
Fixpoint params (a : alloc) (ld : option nat) (ms : list mode) (args : list arg) : option (alloc * list instr * list opd) :=
  match ms, args with
  | m :: ms, x :: args =>
    let direct o := match params a ld ms args with Some (a, c, l) => Some (a, c, o :: l) | None => None end in
    match x with
    | AR r => direct (OReg r)
    | AM b off => direct (OMem b off)
    | AV k => if (k <? nUsed a)%nat then direct (regRef a k)
              else if match ld with Some k' => (k =? k')%nat | None => false end then
                match loadWr a k (mI m) with
                | None => None
                | Some (a1, c1, r) => let a1 := if mO m then mark a1 k else a1 in
                    match params a1 ld ms args with Some (a2, c2, l) => Some (a2, c1 ++ c2, OReg r :: l) | None => None end
                end
              else direct (regRef a k)
    end
  | _, _ => Some (a, [], [])
  end.
(** op, lines 121-181 *)
Definition op (a : alloc) (i : iname) (args : list arg) : option (alloc * list instr) :=
  if negb (Nat.eqb (length (modes i)) (length args)) then None else
  match choose a (modes i) args 0 None None with
  | None => None
  | Some (_, dl) =>
    let ld := match dl with Some d => match nth_error args d with Some (AV k) => Some k | _ => None end | None => None end in
    match params a ld (modes i) args with Some (a, c, l) => Some (a, c ++ [I i l]) | None => None end
  end.

(** ** commands *)
Inductive cmd := Op (i : iname) (args : list arg) | Jump (c : cond) (l : label) | Flush (remove : bool) | Label (l : label).
(** [Label l]: code.push(l) followed by flushWr(true) (and, after the second
    label, by "wrAssignments = []", which has no effect then) *)
Definition emit1 (a : alloc) (c : cmd) : option (alloc * list instr) :=
  match c with
  | Op i args => op a i args
  | Jump c l => Some (a, [J c l])
  | Flush remove => Some (flushWr a remove)
  | Label l => let '(a, c) := flushWr a true in Some (a, Lab l :: c)
  end.
Fixpoint emit (a : alloc) (cs : list cmd) : option (alloc * list instr) :=
  match cs with
  | [] => Some (a, [])
  | c :: cs => match emit1 a c with None => None | Some (a, l) => match emit a cs with None => None | Some (a, l') => Some (a, l ++ l') end end
  end.

(** ** montgomerybuilder.js *)
Definition mq (j : nat) := AM (BSym Sq) (Z.of_nat j * 8).
Definition mrsi (j : nat) := AM (BReg RSI) (Z.of_nat j * 8).
Definition mrcx (j : nat) := AM (BReg RCX) (Z.of_nat j * 8).
Definition mrdi (j : nat) := AM (BReg RDI) (Z.of_nat j * 8).
Definition t : nat := 4.
Definition lab_sq : label := 0%nat.
Definition lab_done : label := 1%nat.
(** lines 43-60 *)
Definition secondLoop (n : nat) (opt : bool) : list cmd :=
  [Op Imov [AR RDX; AV 2]; Op Imulx [AV 0; AR RDX; AV t]; Op Imulx [AV 1; AV 0; AM (BSym Sq) 0]; Op Iadcx [AV 0; AV t]] ++
  flat_map (fun j => [Op Imulx [AV ((j + 1) mod 2); AV (t + j - 1); mq j]; Op Iadcx [AV (t + j - 1); AV (j mod 2)]; Op Iadox [AV (t + j - 1); AV (t + j)]]) (seq 1 (n - 1)) ++
  [Op Imov [AV (t + n - 1); AV 3]; Op Iadcx [AV (t + n - 1); AV (n mod 2)]; Op Iadox [AV (t + n - 1); AV (t + n)]] ++
  (if opt then [] else [Op Imov [AV (t + n); AV 3]; Op Iadcx [AV (t + n); AV 3]; Op Iadox [AV (t + n); AV (t + n + 1)]]).
(** lines 65-86 *)
Definition tailCode (n : nat) (opt : bool) : list cmd :=
  [Flush false] ++
  (if opt then [] else [Op Itest [AV (t + n); AV (t + n)]; Jump Cnz lab_sq]) ++
  flat_map (fun i => [Op Icmp [AV (t + i); mq i]; Jump Cc lab_done; Jump Cnz lab_sq]) (rev (seq 0 n)) ++
  [Label lab_sq] ++
  map (fun i => Op (if Nat.eqb i 0 then Isub else Isbb) [AV (t + i); mq i]) (seq 0 n) ++
  [Flush true; Label lab_done] ++
  map (fun i => Op Imov [mrdi i; AV (t + i)]) (seq 0 n).
(** templateMontgomery, lines 16-89 *)
Definition template (n : nat) (opt : bool) (upper : nat -> list cmd) : list cmd :=
  [Op Imov [AR RCX; AR RDX]; Op Imov [AV 2; AM (BSym Snp) 0]; Op Ixor [AV 3; AV 3]] ++
  flat_map (fun i => upper i ++ secondLoop n opt) (seq 0 n) ++
  tailCode n opt.
(** the first row, shared by buildMul, buildSquare and buildMul1: [first] is the
    operand of the first multiplication, [b j] that of the j-th *)
Definition firstRow (n : nat) (opt : bool) (first : arg) (b : nat -> arg) : list cmd :=
  [Op Imulx [AV 0; AV t; first]] ++
  flat_map (fun j => [Op Imulx [AV (j mod 2); AV (t + j); b j]; Op Iadcx [AV (t + j); AV ((j - 1) mod 2)]]) (seq 1 (n - 1)) ++
  (if opt then [Op Imov [AV (t + n); AV 3]; Op Iadcx [AV (t + n); AV ((n - 1) mod 2)]]
   else [Op Imov [AV (t + n); AV 3]; Op Iadcx [AV (t + n); AV ((n - 1) mod 2)]; Op Imov [AV (t + n + 1); AV 3]; Op Iadcx [AV (t + n + 1); AV 3]]).
Definition clearTop (n : nat) (opt : bool) : list cmd := [if opt then Op Imov [AV (t + n); AV 3] else Op Imov [AV (t + n + 1); AV 3]].
Definition nextRow (n : nat) (opt : bool) (b : nat -> arg) : list cmd :=
  clearTop n opt ++
  flat_map (fun j => [Op Imulx [AV 1; AV 0; b j]; Op Iadcx [AV (t + j); AV 0]; Op Iadox [AV (t + j + 1); AV 1]]) (seq 0 n) ++
  (if opt then [Op Iadcx [AV (t + n); AV 3]] else [Op Iadcx [AV (t + n); AV 3]; Op Iadcx [AV (t + n + 1); AV 3]; Op Iadox [AV (t + n + 1); AV 3]]).
(** lines 92-132 *)
Definition mulUpper (n : nat) (opt : bool) (i : nat) : list cmd := [Op Imov [AR RDX; mrsi i]] ++ (if Nat.eqb i 0 then firstRow n opt (AM (BReg RCX) 0) mrcx else nextRow n opt mrcx).
(** lines 219-259 *)
Definition squareUpper (n : nat) (opt : bool) (i : nat) : list cmd := [Op Imov [AR RDX; mrsi i]] ++ (if Nat.eqb i 0 then firstRow n opt (AR RDX) mrsi else nextRow n opt mrsi).
(** lines 262-290 *)
Definition mul1Upper (n : nat) (opt : bool) (i : nat) : list cmd := if Nat.eqb i 0 then [Op Imov [AR RDX; AR RCX]] ++ firstRow n opt (AM (BReg RSI) 0) mrsi else clearTop n opt.
(** lines 292-312 *)
Definition fromUpper (n : nat) (opt : bool) (i : nat) : list cmd := if Nat.eqb i 0 then map (fun j => Op Imov [AV (t + j); mrsi j]) (seq 0 n) ++ [Op Imov [AV (t + n); AV 3]] ++ (if opt then [] else [Op Imov [AV (t + n + 1); AV 3]])
  else clearTop n opt.
(** lines 18-27 and 88: the code without the final ret *)
Definition neededFor (n : nat) (opt : bool) : nat := (4 + n + 1 + (if opt then 0 else 1))%nat.
Definition routine (n : nat) (opt : bool) (upper : nat -> list cmd) : option (list instr) :=
  match emit (newBuilder (neededFor n opt)) (template n opt upper) with
  | Some (_, code) => Some (header (neededFor n opt) ++ code ++ footer (neededFor n opt))
  | None => None
  end.
Definition asm_mul (n : nat) (opt : bool) := routine n opt (mulUpper n opt).
Definition asm_square (n : nat) (opt : bool) := routine n opt (squareUpper n opt).
Definition asm_mul1 (n : nat) (opt : bool) := routine n opt (mul1Upper n opt).
Definition asm_from (n : nat) (opt : bool) := routine n opt (fromUpper n opt).
