(** The AArch64 Montgomery multiplications: Gen_rawMul and Gen_rawMul1 of
    src/armbuilder.js, lines 1277-1639.  [opt] is canOptimizeConsensys. *)
From Coq Require Import ZArith List Bool.
From Verif Require Import Limbs Arm.
Import ListNotations.
Open Scope Z_scope.
Local Open Scope nat_scope.

Record mregs := { mr1 : list reg; mb1 : list reg; mq1 : list reg; mr2 : list reg; mq2 : list reg; mb2 : list reg; msv : list reg }.
Definition short (n : nat) : bool := Nat.leb n 6.
(** 1283-1306, 1483-1507; a register assigned twice is saved twice *)
Definition mulregs (n : nat) : mregs :=
  let '(r1, p) := take (n + 1) (pool 9) in
  if short n then
    let '(b1, p) := take n p in let '(q1, _) := take n p in
    {| mr1 := r1; mb1 := b1; mq1 := q1; mr2 := skipn 1 r1; mq2 := q1; mb2 := b1; msv := saved r1 ++ saved b1 ++ saved q1 |}
  else
    let '(w, p) := take 4 p in
    let '(b2, _) := take n (p ++ w ++ [3; 4; 5; 7] ++ firstn 1 r1) in
    {| mr1 := r1; mb1 := cyclicCopy w n; mq1 := cyclicCopy w n; mr2 := skipn 1 r1; mq2 := cyclicCopy [1; 2] n; mb2 := b2;
       msv := saved r1 ++ saved w ++ saved b2 |}.

(** a word of an operand: already in its register, or loaded *)
Definition ldl (n : nat) (v : list reg) (i : nat) (b : reg) : list instr := if short n then [] else ldw v i b.
(** 1369-1388, and 1561-1580 with [ra] x2 and [bb] x1 *)
Definition mulAB (n : nat) (R : mregs) (ra bb : reg) : list instr :=
  flat_map (fun i => ldl n (mb1 R) i bb ++
      (if Nat.eqb i 0 then [Mul (ix (mr1 R) i) (ix (mb1 R) i) ra]
       else [Mul 7 (ix (mb1 R) i) ra; addr (ix (mr1 R) i) (ix (mr1 R) i) 7 (i - 1)]) ++
      [Umulh (ix (mr1 R) (i + 1)) (ix (mb1 R) i) ra]) (seq 0 n) ++
  (if Nat.ltb 1 n then [Adc (ix (mr1 R) n) (ix (mr1 R) n) 31] else []).
(** 1390-1433 *)
Definition addMulAB (opt : bool) (n : nat) (R : mregs) : list instr :=
  let t1 := cyclicCopy [7; 5] n in
  flat_map (fun i => ldl n (mb1 R) i 2 ++ [Mul (ix (mr1 R) i) (ix (mb1 R) i) 3; addr (ix (mr1 R) i) (ix (mr1 R) i) (ix (mr1 R) (i + 1)) i]) (seq 0 n) ++
  (if opt then [Adc (ix (mr1 R) n) 31 31; Adds (ix (mr1 R) 1) (ix (mr1 R) 1) 5]
   else [Adcs (ix (mr1 R) n) 31 8; Adc 8 31 31]) ++
  flat_map (fun i => ldl n (mb1 R) i 2 ++ [Umulh (ix t1 i) (ix (mb1 R) i) 3;
      (if opt then (if Nat.eqb i (n - 1) then Adc else Adcs) else (if Nat.eqb i 0 then Adds else Adcs)) (ix (mr1 R) (i + 1)) (ix (mr1 R) (i + 1)) (ix t1 i)]) (seq 0 n) ++
  (if opt then [] else [Adc 8 8 31]).
(** 1435-1473 *)
Definition mulRawq (opt : bool) (n w : nat) (R : mregs) : list instr :=
  let t1 := cyclicCopy [7; 3] n in
  flat_map (fun i => ldl n (mq1 R) i 6 ++ [Mul (ix t1 i) (ix (mq1 R) i) 5; addr (ix (mr1 R) i) (ix (mr1 R) i) (ix t1 i) i]) (seq 0 n) ++
  (if opt then [Adc (ix (mr1 R) n) (ix (mr1 R) n) 31]
   else [Adcs (ix (mr1 R) n) (ix (mr1 R) n) 31; if Nat.eqb w 0 then Adc 8 31 31 else Adc 8 8 31]) ++
  flat_map (fun i => ldl n (mq1 R) i 6 ++ [Umulh (ix t1 i) (ix (mq1 R) i) 5; addr (ix (mr1 R) (i + 1)) (ix (mr1 R) (i + 1)) (ix t1 i) i]) (seq 0 n) ++
  (if opt then (if Nat.ltb w (n - 1) then [Adc 5 31 31] else []) else [Adc 8 8 31]).
(** 1582-1638 *)
Definition mulRawq1 (opt : bool) (n w : nat) (R : mregs) : list instr :=
  let t1 := cyclicCopy [7; 3] n in
  flat_map (fun i => ldl n (mq1 R) i 6 ++ [Mul (ix t1 i) (ix (mq1 R) i) 5;
      addr (ix (mr1 R) i) (ix (mr1 R) (if Nat.eqb w 0 then i else i + 1)) (ix t1 i) i]) (seq 0 n) ++
  (if Nat.eqb w 0 then [Adc (ix (mr1 R) n) (ix (mr1 R) n) 31]
   else if opt then [Adc (ix (mr1 R) n) 31 31; Adds (ix (mr1 R) 1) (ix (mr1 R) 1) 8]
   else [Adcs (ix (mr1 R) n) 31 8; Adc 8 31 31]) ++
  flat_map (fun i => ldl n (mq1 R) i 6 ++ [Umulh (ix t1 i) (ix (mq1 R) i) 5; addr (ix (mr1 R) (i + 1)) (ix (mr1 R) (i + 1)) (ix t1 i) i]) (seq 0 n) ++
  (if opt then (if Nat.ltb w (n - 1) then [Adc 8 31 31] else []) else [if Nat.eqb w 0 then Adc 8 31 31 else Adc 8 8 31]).
(** 293-307 *)
Definition cselStore (n : nat) (r a b : list reg) (mr : reg) : list instr :=
  flat_map (fun i => Csel (ix r i) (ix a i) (ix b i) HS :: (if Nat.eqb i 0 then [] else stw r (i - 1) mr)) (seq 0 n) ++ stw r (n - 1) mr.
(** 1322-1330, 1528-1536 *)
Definition mulConst (n : nat) (R : mregs) : list instr :=
  [Adr 4 Snp; Ldr 4 4 0%Z; Adr 6 Srawq] ++ (if short n then ldv n (mq1 R) 6 else []).
(** 1333-1348, 1547-1558 *)
Definition mulEnd (opt : bool) (n : nat) (R : mregs) : list instr :=
  (if short n then flat_map (fun i => [subw (mb2 R) (mr2 R) (mq2 R) i]) (seq 0 n) else subld n (mb2 R) (mr2 R) (mq2 R) 6) ++
  (if opt then [] else [Cinc 8 8 HS; CmpI 8 1%Z]) ++
  cselStore n (mr2 R) (mb2 R) (mr2 R) 0 ++ popRegs (msv R) ++ [Ret].

(** Gen_rawMul, 1310-1367 *)
Definition mulRow (opt : bool) (n : nat) (R : mregs) (i : nat) : list instr :=
  Ldr 3 1 (off i) :: (if Nat.eqb i 0 then mulAB n R 3 2 else addMulAB opt n R) ++ [Mul 5 4 (ix (mr1 R) 0)] ++ mulRawq opt n i R.
Definition rawMMul (opt : bool) (n : nat) : list instr :=
  let R := mulregs n in
  pushRegs (msv R) ++ (if short n then ldv n (mb1 R) 2 else []) ++ mulConst n R ++
  flat_map (mulRow opt n R) (seq 0 n) ++ mulEnd opt n R.
(** Gen_rawMul1, 1510-1559: rawMMul1 and rawFromMontgomery *)
Definition mulRow1 (opt : bool) (n : nat) (R : mregs) (i : nat) : list instr :=
  Mul 5 4 (ix (mr1 R) (if Nat.eqb i 0 then 0 else 1)) :: mulRawq1 opt n i R.
Definition rawMMul1 (opt : bool) (n : nat) : list instr :=
  let R := mulregs n in
  pushRegs (msv R) ++ (if short n then ldv n (mb1 R) 1 else []) ++ mulConst n R ++ mulAB n R 2 1 ++
  flat_map (mulRow1 opt n R) (seq 0 n) ++ mulEnd opt n R.
Definition rawFromMontgomery (opt : bool) (n : nat) : list instr :=
  let R := mulregs n in
  pushRegs (msv R) ++ ldv n (mr1 R) 1 ++ [Mov (ix (mr1 R) n) 31] ++ mulConst n R ++
  flat_map (mulRow1 opt n R) (seq 0 n) ++ mulEnd opt n R.

Arguments short n%nat. Arguments mulregs n%nat.
