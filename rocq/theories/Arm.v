(** The part of AArch64 used by the generated raw field routines
    (/repo/src/armbuilder.js, /repo/src/fr_raw_arm64.s.ejs).

    Registers and memory hold 64-bit words.  Register 31 is xzr: it reads as 0
    and writes to it are lost.  Memory is a map from byte addresses to words,
    accessed only at multiples of 8 and only where [mapd] says that a word is
    mapped; any other access is a fault: [None].  The stack pointer is apart.
    Jumps go forward only, as in the modelled routines: a taken jump skips to
    its label.  Running off the end of the code is a fault too. *)
From Coq Require Import ZArith List Bool.
From Verif Require Import Limbs.
Import ListNotations.
Open Scope Z_scope.

Definition reg := nat.
Inductive sym := Srawq | Snp | SlboMask.
Inductive cnd := EQ | NE | HS | LO | LT.
Inductive instr :=
| Ldr (r b : reg) (off : Z) | Ldp (r1 r2 b : reg) (off : Z)
| Str (r b : reg) (off : Z) | Stp (r1 r2 b : reg) (off : Z)
| Push1 (r : reg) | Push2 (r1 r2 : reg)       (* str/stp …, [sp, #-16]! *)
| Pop1 (r : reg) | Pop2 (r1 r2 : reg)         (* ldr/ldp …, [sp], #16 *)
| Adr (r : reg) (s : sym)
| Mov (d a : reg) | MovI (d : reg) (v : Z)
| Adds (d a b : reg) | Adcs (d a b : reg) | Adc (d a b : reg)
| Subs (d a b : reg) | Sbcs (d a b : reg)
| And (d a b : reg) | Orr (d a b : reg) | Eor (d a b : reg) | Mvn (d a : reg)
| Mul (d a b : reg) | Umulh (d a b : reg)
| Cmp (a b : reg) | CmpI (a : reg) (v : Z)
| Cset (d : reg) (c : cnd) | Cinc (d a : reg) (c : cnd) | Cneg (d a : reg) (c : cnd)
| Csel (d a b : reg) (c : cnd)
| Cbz (r : reg) (l : nat) | Cbnz (r : reg) (l : nat) | Bc (c : cnd) (l : nat) | Br (l : nat)
| Lab (l : nat) | Ret.

Record mach := { regs : reg -> Z; sp : Z; fN : bool; fZ : bool; fC : bool; fV : bool; mem : Z -> Z; mapd : Z -> bool }.

Definition xr (m : mach) (r : reg) : Z := if Nat.eqb r 31 then 0 else regs m r.
Definition wr (m : mach) (r : reg) (v : Z) : mach :=
  {| regs := fun x => if Nat.eqb x r then v else regs m x; sp := sp m;
     fN := fN m; fZ := fZ m; fC := fC m; fV := fV m; mem := mem m; mapd := mapd m |}.
Definition wsp (m : mach) (v : Z) : mach :=
  {| regs := regs m; sp := v; fN := fN m; fZ := fZ m; fC := fC m; fV := fV m; mem := mem m; mapd := mapd m |}.
Definition wfl (m : mach) (n z c v : bool) : mach :=
  {| regs := regs m; sp := sp m; fN := n; fZ := z; fC := c; fV := v; mem := mem m; mapd := mapd m |}.
Definition wm (m : mach) (a v : Z) : mach :=
  {| regs := regs m; sp := sp m; fN := fN m; fZ := fZ m; fC := fC m; fV := fV m;
     mem := fun x => if x =? a then v else mem m x; mapd := mapd m |}.

Definition neg64 (x : Z) : bool := B / 2 <=? x.
Definition b2z (b : bool) : Z := if b then 1 else 0.
(** AddWithCarry of the architecture manual *)
Definition awc (m : mach) (x y c : Z) : Z * mach :=
  let s := x + y + c in let r := s mod B in
  (r, wfl m (neg64 r) (r =? 0) (B <=? s)
        (Bool.eqb (neg64 x) (neg64 y) && negb (Bool.eqb (neg64 x) (neg64 r)))).
Definition inv64 (x : Z) : Z := B - 1 - x.
Definition holds (m : mach) (c : cnd) : bool :=
  match c with
  | EQ => fZ m | NE => negb (fZ m) | HS => fC m | LO => negb (fC m)
  | LT => negb (Bool.eqb (fN m) (fV m))
  end.
Definition acc (m : mach) (a : Z) : bool := mapd m a && (a mod 8 =? 0).
Definition ea (m : mach) (b : reg) (off : Z) : Z := (xr m b + off) mod B.

Definition step (lay : sym -> Z) (i : instr) (m : mach) : option mach :=
  let setf d (p : Z * mach) := Some (wr (snd p) d (fst p)) in
  match i with
  | Ldr r b off => let a := ea m b off in
      if acc m a then Some (wr m r (mem m a)) else None
  | Ldp r1 r2 b off => let a := ea m b off in let a' := ea m b (off + 8) in
      if acc m a && acc m a' && negb (Nat.eqb r1 r2) then Some (wr (wr m r1 (mem m a)) r2 (mem m a')) else None
  | Str r b off => let a := ea m b off in
      if acc m a then Some (wm m a (xr m r)) else None
  | Stp r1 r2 b off => let a := ea m b off in let a' := ea m b (off + 8) in
      if acc m a && acc m a' then Some (wm (wm m a (xr m r1)) a' (xr m r2)) else None
  | Push1 r => let s := sp m - 16 in
      if acc m s then Some (wsp (wm m s (xr m r)) s) else None
  | Push2 r1 r2 => let s := sp m - 16 in
      if acc m s && acc m (s + 8) then Some (wsp (wm (wm m s (xr m r1)) (s + 8) (xr m r2)) s) else None
  | Pop1 r => let s := sp m in
      if acc m s then Some (wsp (wr m r (mem m s)) (s + 16)) else None
  | Pop2 r1 r2 => let s := sp m in
      if acc m s && acc m (s + 8) && negb (Nat.eqb r1 r2)
      then Some (wsp (wr (wr m r1 (mem m s)) r2 (mem m (s + 8))) (s + 16)) else None
  | Adr r s => Some (wr m r (lay s))
  | Mov d a => Some (wr m d (xr m a))
  | MovI d v => Some (wr m d (v mod B))
  | Adds d a b => setf d (awc m (xr m a) (xr m b) 0)
  | Adcs d a b => setf d (awc m (xr m a) (xr m b) (b2z (fC m)))
  | Adc d a b => Some (wr m d ((xr m a + xr m b + b2z (fC m)) mod B))
  | Subs d a b => setf d (awc m (xr m a) (inv64 (xr m b)) 1)
  | Sbcs d a b => setf d (awc m (xr m a) (inv64 (xr m b)) (b2z (fC m)))
  | And d a b => Some (wr m d (Z.land (xr m a) (xr m b)))
  | Orr d a b => Some (wr m d (Z.lor (xr m a) (xr m b)))
  | Eor d a b => Some (wr m d (Z.lxor (xr m a) (xr m b)))
  | Mvn d a => Some (wr m d (inv64 (xr m a)))
  | Mul d a b => Some (wr m d ((xr m a * xr m b) mod B))
  | Umulh d a b => Some (wr m d (xr m a * xr m b / B))
  | Cmp a b => Some (snd (awc m (xr m a) (inv64 (xr m b)) 1))
  | CmpI a v => Some (snd (awc m (xr m a) (inv64 (v mod B)) 1))
  | Cset d c => Some (wr m d (b2z (holds m c)))
  | Cinc d a c => Some (wr m d (if holds m c then (xr m a + 1) mod B else xr m a))
  | Cneg d a c => Some (wr m d (if holds m c then (- xr m a) mod B else xr m a))
  | Csel d a b c => Some (wr m d (if holds m c then xr m a else xr m b))
  | _ => None
  end.

(** [t]: the label a jump is on its way to *)
Fixpoint run (lay : sym -> Z) (t : option nat) (c : list instr) (m : mach) : option mach :=
  match c with
  | [] => None
  | i :: c' =>
      match t with
      | Some l => match i with
                  | Lab l' => run lay (if Nat.eqb l l' then None else t) c' m
                  | _ => run lay t c' m
                  end
      | None =>
          match i with
          | Ret => Some m
          | Lab _ => run lay None c' m
          | Br l => run lay (Some l) c' m
          | Bc k l => run lay (if holds m k then Some l else None) c' m
          | Cbz r l => run lay (if xr m r =? 0 then Some l else None) c' m
          | Cbnz r l => run lay (if xr m r =? 0 then None else Some l) c' m
          | _ => match step lay i m with Some m' => run lay None c' m' | None => None end
          end
      end
  end.

(** ** The code generator *)
Local Open Scope nat_scope.

(** RegVar, 19-41: a list of registers; indexing past the end is [undefined] in
    JavaScript and stops the generator, here it is xzr (the lemmas about the
    widths show that it does not happen in what is proved) *)
Definition ix (v : list reg) (i : nat) : reg := nth i v 31.
(** 50-58 *)
Definition cyclicCopy (v : list reg) (n : nat) : list reg := map (fun i => ix v (i mod length v)) (seq 0 n).
(** 60-67 *)
Definition expand (v : list reg) (r : reg) (n : nat) : list reg := v ++ repeat r (n - length v).
(** 69-81: x(k) to x29 without x18 *)
Definition pool (k : nat) : list reg := filter (fun r => negb (Nat.eqb r 18)) (seq k (30 - k)).
(** 83-97, 99-101: registers are taken from the front and given back at the end *)
Definition take (n : nat) (p : list reg) : list reg * list reg := (firstn n p, skipn n p).
Definition saved (l : list reg) : list reg := filter (fun r => Nat.leb 19 r) l.

Definition off (i : nat) : Z := (8 * Z.of_nat i)%Z.
(** 234-254, 309-327 *)
Definition ldw (v : list reg) (i : nat) (b : reg) : list instr :=
  if Nat.even i then (if Nat.eqb i (length v - 1) then [Ldr (ix v i) b (off i)]
                      else [Ldp (ix v i) (ix v (i + 1)) b (off i)]) else [].
Definition stw (v : list reg) (i : nat) (b : reg) : list instr :=
  if Nat.even i then (if Nat.eqb i (length v - 1) then [Str (ix v i) b (off i)]
                      else [Stp (ix v i) (ix v (i + 1)) b (off i)]) else [].
Definition ldv (n : nat) (v : list reg) (b : reg) := flat_map (fun i => ldw v i b) (seq 0 n).
Definition stv (n : nat) (v : list reg) (b : reg) := flat_map (fun i => stw v i b) (seq 0 n).
(** 256-282 *)
Definition addr (r a b : reg) (i : nat) : instr := if Nat.eqb i 0 then Adds r a b else Adcs r a b.
Definition addw (r a b : list reg) (i : nat) : instr := addr (ix r i) (ix a i) (ix b i) i.
Definition subr (r a b : reg) (i : nat) : instr := if Nat.eqb i 0 then Subs r a b else Sbcs r a b.
Definition subw (r a b : list reg) (i : nat) : instr := subr (ix r i) (ix a i) (ix b i) i.
(** 284-291 *)
Definition subld (n : nat) (r a b : list reg) (mr : reg) : list instr :=
  flat_map (fun i => ldw b i mr ++ [subw r a b i]) (seq 0 n).
(** 195-204, 206-220 *)
Fixpoint pushRegs (l : list reg) : list instr :=
  match l with
  | [] => [] | [r] => [Push1 r] | r1 :: r2 :: l => Push2 r1 r2 :: pushRegs l
  end.
Fixpoint popRegs (l : list reg) : list instr :=
  match l with
  | [] => [] | [r] => [Pop1 r] | r1 :: r2 :: l => popRegs l ++ [Pop2 r1 r2]
  end.

(** *** Gen_rawIsZero, 337-410 *)
(** the work registers x1 to x16, [c] of them given out so far *)
Definition zwork (c : nat) : reg := (1 + c mod 16).
Fixpoint zstep (w : nat) (c i : nat) : list instr * reg * nat :=
  match w with
  | O => ([], 31, c)
  | S O => ([Ldr (zwork c) 0 (off i)], zwork c, S c)
  | S (S w') =>
      let two := [Ldp (zwork c) (zwork (c + 1)) 0 (off i); Orr (zwork (c + 2)) (zwork c) (zwork (c + 1))] in
      match w' with
      | O => (two, zwork (c + 2), (c + 3))
      | _ => let '(cb, b, c') := zstep w' (c + 3) (i + 2) in
             (two ++ cb ++ [Orr (zwork c') (zwork (c + 2)) b], zwork c', S c')
      end
  end.
(** genChunk: [a] is [accum], [None] while it is undefined *)
Definition zchunk (w i : nat) (s : list instr * option reg * nat) : list instr * option reg * nat :=
  let '(code, a, c) := s in
  let '(cs, r, c') := zstep w c (i * 4) in
  match a with
  | None => (code ++ cs, Some r, c')
  | Some a => (code ++ cs ++ [Orr 17 a r], Some 17, c')
  end.
Definition zfold (n : nat) : list instr * option reg * nat :=
  let s := fold_left (fun s i => zchunk 4 i s) (seq 0 (n / 4)) ([], None, 0) in
  if Nat.eqb (n mod 4) 0 then s else zchunk (n mod 4) (n / 4) s.
Definition rawIsZero (n : nat) : list instr :=
  let '(code, a, _) := zfold n in
  code ++ [Cmp (match a with Some a => a | None => 31 end) 31; Cset 0 EQ; Ret].

(** *** Gen_rawIsEq, 412-505 *)
(** the work registers x2 to x4; a1 = x5..x8, b1 = x9..x12, c1 = x13..x16 *)
Definition ework (c : nat) : reg := (2 + c mod 3).
Definition ea1 (i : nat) : reg := (5 + i mod 4).
Definition eb1 (i : nat) : reg := (9 + i mod 4).
Definition ec1 (i : nat) : reg := (13 + i mod 4).
Fixpoint estep (w : nat) (c i : nat) : list instr * reg * nat :=
  match w with
  | O => ([], 31, c)
  | S O => ([Ldr (ea1 i) 0 (off i); Ldr (eb1 i) 1 (off i); Eor (ework c) (ea1 i) (eb1 i)], ework c, S c)
  | S (S w') =>
      let two := [Ldp (ea1 i) (ea1 (i + 1)) 0 (off i); Ldp (eb1 i) (eb1 (i + 1)) 1 (off i);
                  Eor (ec1 i) (ea1 i) (eb1 i); Eor (ec1 (i + 1)) (ea1 (i + 1)) (eb1 (i + 1));
                  Orr (ework c) (ec1 i) (ec1 (i + 1))] in
      match w' with
      | O => (two, ework c, S c)
      | _ => let '(cb, b, c') := estep w' (S c) (i + 2) in
             (two ++ cb ++ [Orr (ework c') (ework c) b], ework c', S c')
      end
  end.
Definition echunk (long : bool) (w i : nat) (s : list instr * option reg * nat) : list instr * option reg * nat :=
  let '(code, a, c) := s in
  let '(cs, r, c') := estep w c (i * 4) in
  if long then (code ++ cs ++ [Orr 17 17 r], a, c')
  else match a with
       | None => (code ++ cs, Some r, c')
       | Some a => (code ++ cs ++ [Orr 17 a r], Some 17, c')
       end.
Definition efold (n : nat) : list instr * option reg * nat :=
  let long := Nat.leb 8 n in
  let s0 := if long then ([Mov 17 31], Some 17, 0) else ([], None, 0) in
  let s := fold_left (fun s i => echunk long 4 i s) (seq 0 (n / 4)) s0 in
  if Nat.eqb (n mod 4) 0 then s else echunk long (n mod 4) (n / 4) s.
Definition rawIsEq (n : nat) : list instr :=
  let '(code, a, _) := efold n in
  code ++ [Cmp (match a with Some a => a | None => 31 end) 31; Cset 0 EQ; Ret].

(** *** Gen_rawSwap, 507-527, and Gen_rawCopy, 529-546 *)
Definition rawSwap (n : nat) : list instr :=
  let '(a, p) := take 8 (pool 2) in let '(b, _) := take 8 p in
  let a1 := cyclicCopy a n in let b1 := cyclicCopy b n in
  flat_map (fun i => ldw a1 i 0 ++ ldw b1 i 1 ++ stw a1 i 1 ++ stw b1 i 0) (seq 0 n) ++ [Ret].
Definition rawCopy (n : nat) : list instr :=
  let a1 := cyclicCopy (fst (take 8 (pool 2))) n in
  flat_map (fun i => ldw a1 i 1 ++ stw a1 i 0) (seq 0 n) ++ [Ret].

(** *** Gen_rawCopyS2L, 548-596; label 1 is adjust_neg *)
Definition rawCopyS2L (n : nat) : list instr :=
  let '(q, p) := take 6 (pool 4) in let '(r, _) := take 6 p in
  let q1 := cyclicCopy q n in let r1 := cyclicCopy r n in
  [Cmp 1 31; Bc LT 1] ++ stv n (expand [1] 31 n) 0 ++ [Ret; Lab 1] ++
  (if Nat.ltb 1 n then [MovI 2 (-1)] else []) ++ [Adr 3 Srawq] ++
  flat_map (fun i => ldw q1 i 3 ++ [addw r1 (expand [1] 2 n) q1 i] ++
                     (if Nat.eqb i 0 then [] else stw r1 (i - 1) 0)) (seq 0 n) ++
  stw r1 (n - 1) 0 ++ [Ret].

(** *** Gen_rawCmp, 598-633 *)
Definition rawCmp (n : nat) : list instr :=
  let '(a, p) := take 4 (pool 3) in let '(b, _) := take 4 p in
  let a1 := cyclicCopy a n in let b1 := cyclicCopy b n in
  flat_map (fun i => ldw a1 i 0 ++ ldw b1 i 1 ++
                     [subw a1 a1 b1 i; if Nat.eqb i 0 then Cset 2 NE else Cinc 2 2 NE]) (seq 0 n) ++
  [Cneg 0 2 LO; Ret].

(** *** Gen_rawAdd, 699-776; labels: 1 done_s, 2 out *)
Definition addregs (n : nat) : list reg * list reg * list reg * list reg :=
  let '(w, p) := take 4 (pool 4) in let '(r1, p) := take n p in
  let '(r2, _) := take n (p ++ w) in
  (w, r1, r2, saved w ++ saved r1 ++ saved r2).
Definition rawAddG (short : bool) (n : nat) : list instr :=
  let '(w, r1, r2, sv) := addregs n in
  let b1 := cyclicCopy w n in
  pushRegs sv ++
  (if short then flat_map (fun i => ldw r1 i 1 ++ [addw r1 r1 (expand [2] 31 n) i]) (seq 0 n)
   else flat_map (fun i => ldw r1 i 1 ++ ldw b1 i 2 ++ [addw r1 r1 b1 i]) (seq 0 n)) ++
  [Cset 2 HS; Adr 3 Srawq] ++ subld n r2 r1 r2 3 ++
  [Cbnz 2 1; Bc HS 1] ++ stv n r1 0 ++ [Br 2; Lab 1] ++ stv n r2 0 ++ [Lab 2] ++ popRegs sv ++ [Ret].
Definition rawAdd := rawAddG false.
Definition rawAddLS := rawAddG true.

(** *** Gen_rawSub, 778-854; label 1 is done *)
Inductive subkind := SubLL | SubLS | SubSL.
Definition rawSubG (k : subkind) (n : nat) : list instr :=
  let '(w, r1, _, sv) := addregs n in
  let b1 := cyclicCopy w n in
  pushRegs sv ++
  match k with
  | SubLL => flat_map (fun i => ldw r1 i 1 ++ ldw b1 i 2 ++ [subw r1 r1 b1 i]) (seq 0 n)
  | SubLS => flat_map (fun i => ldw r1 i 1 ++ [subw r1 r1 (expand [2] 31 n) i]) (seq 0 n)
  | SubSL => subld n r1 (expand [1] 31 n) r1 2
  end ++
  [Bc HS 1; Adr 3 Srawq] ++
  flat_map (fun i => ldw b1 i 3 ++ [addw r1 r1 b1 i]) (seq 0 n) ++
  [Lab 1] ++ stv n r1 0 ++ popRegs sv ++ [Ret].

(** *** Gen_rawSubRegular, 856-883 *)
Definition rawSubRegular (n : nat) : list instr :=
  let '(a, p) := take 4 (pool 4) in let '(b, _) := take 4 p in
  let a1 := cyclicCopy a n in let b1 := cyclicCopy b n in
  flat_map (fun i => ldw a1 i 1 ++ ldw b1 i 2 ++ [subw a1 a1 b1 i] ++
                     (if Nat.eqb i 0 then [] else stw a1 (i - 1) 0)) (seq 0 n) ++
  stw a1 (n - 1) 0 ++ [Ret].

(** *** Gen_rawNeg, 885-966; labels: 1 done_zero, 2 out *)
Definition rawNeg (n : nat) : list instr :=
  let '(w, p) := take 4 (pool 4) in let '(r1, _) := take n p in
  let b1 := cyclicCopy w n in
  let sv := saved w ++ saved r1 in
  pushRegs sv ++ [Mov 2 31] ++
  flat_map (fun i => let r := ix w (i mod 4) in
     [Ldp (ix r1 (2 * i)) (ix r1 (2 * i + 1)) 1 (off (2 * i)); Orr r (ix r1 (2 * i)) (ix r1 (2 * i + 1)); Orr 2 2 r])
     (seq 0 (n / 2)) ++
  (if Nat.odd n then [Ldr (ix r1 (n - 1)) 1 (off (n - 1)); Orr 2 2 (ix r1 (n - 1))] else []) ++
  [Cbz 2 1; Adr 3 Srawq] ++
  flat_map (fun i => ldw b1 i 3 ++ [subw r1 b1 r1 i] ++
                     (if Nat.eqb i 0 then [] else stw r1 (i - 1) 0)) (seq 0 n) ++
  stw r1 (n - 1) 0 ++
  (match sv with [] => [Ret] | _ => [Br 2] end) ++ [Lab 1] ++ stv n (repeat 31 n) 0 ++
  (match sv with [] => [] | _ => [Lab 2] end) ++ popRegs sv ++ [Ret].

(** *** Gen_rawNegLS, 968-1029; label 1 is done *)
Definition rawNegLS (n : nat) : list instr :=
  let '(w, r1, r2, sv) := addregs n in
  let a2 := cyclicCopy w n in
  pushRegs sv ++ [Adr 3 Srawq] ++
  flat_map (fun i => ldw r1 i 3 ++ [subw r2 r1 (expand [2] 31 n) i]) (seq 0 n) ++ [Cset 2 HS] ++
  flat_map (fun i => ldw a2 i 1 ++ [subw r2 r2 a2 i]) (seq 0 n) ++ [Cset 3 HS; Orr 3 3 2; Cbz 3 1] ++
  map (fun i => addw r2 r2 r1 i) (seq 0 n) ++
  [Lab 1] ++ stv n r2 0 ++ popRegs sv ++ [Ret].

Arguments xr m r%nat. Arguments wr m r%nat v.
Arguments ldw v i%nat b%nat. Arguments stw v i%nat b%nat. Arguments stv n%nat v b%nat. Arguments ldv n%nat v b%nat.
Arguments subld n%nat r a b mr%nat. Arguments ix v i%nat.
Arguments Ldr (r b)%nat off. Arguments Str (r b)%nat off. Arguments Ldp (r1 r2 b)%nat off. Arguments Stp (r1 r2 b)%nat off.
Arguments Push1 r%nat. Arguments Push2 (r1 r2)%nat. Arguments Pop1 r%nat. Arguments Pop2 (r1 r2)%nat.
Arguments Adr r%nat s. Arguments Mov (d a)%nat. Arguments MovI d%nat v. Arguments Mvn (d a)%nat.
Arguments Adds (d a b)%nat. Arguments Adcs (d a b)%nat. Arguments Adc (d a b)%nat. Arguments Subs (d a b)%nat. Arguments Sbcs (d a b)%nat.
Arguments And (d a b)%nat. Arguments Orr (d a b)%nat. Arguments Eor (d a b)%nat. Arguments Mul (d a b)%nat. Arguments Umulh (d a b)%nat.
Arguments Cmp (a b)%nat. Arguments CmpI a%nat v. Arguments Cset d%nat c. Arguments Cinc (d a)%nat c. Arguments Cneg (d a)%nat c. Arguments Csel (d a b)%nat c.
Arguments Cbz (r l)%nat. Arguments Cbnz (r l)%nat. Arguments Bc c l%nat. Arguments Br l%nat. Arguments Lab l%nat.
