(** Raw limb operations of the portable implementation,
    src/fr_raw_generic.cpp.ejs, over a memory of limb arrays.

    Pointers: [U i] are the caller's arrays, [T i] stack temporaries (distinct
    from all of the caller's arrays, arbitrary initial content).  Two arrays
    either coincide or are disjoint (the API only takes whole elements). *)
From Coq Require Import ZArith List Lia Bool.
From Verif Require Import Limbs Gen.
Import ListNotations.
Open Scope Z_scope.

Inductive ptr := U (n : nat) | T (n : nat).

Definition ptr_eqb (a b : ptr) : bool :=
  match a, b with
  | U x, U y => Nat.eqb x y
  | T x, T y => Nat.eqb x y
  | _, _ => false
  end.

Definition rmem := ptr -> list Z.
Definition upd {A} (m : ptr -> A) (p : ptr) (v : A) : ptr -> A :=
  fun x => if ptr_eqb x p then v else m x.

(** mpn_copyi on memory: limb by limb, increasing addresses. *)
Fixpoint copyi (m : rmem) (r : ptr) (ro : nat) (a : ptr) (ao : nat) (cnt : nat) : rmem :=
  match cnt with
  | O => m
  | S k => copyi (upd m r (set (m r) ro (get (m a) ao))) r (S ro) a (S ao) k
  end.

(** memset(&r[off], 0, cnt*8) *)
Fixpoint zero_range (l : list Z) (off cnt : nat) : list Z :=
  match cnt with
  | O => l
  | S k => zero_range (set l off 0) (S off) k
  end.

Section WithParams.
Variable P : zq.
Let n := p_n64 P.
Let q := p_q P.

(** "if (mpn_cmp(r, rawq) >= 0) mpn_sub_n(r, r, rawq)", with the extra carry test. *)
Definition cond_sub (c : bool) (m : rmem) (r : ptr) : rmem :=
  if c || (mpn_cmp (m r) q >=? 0)
  then upd m r (fst (mpn_sub_n n (m r) q)) else m.

(** lines 12-20 *)
Definition rawAdd (r a b : ptr) (m : rmem) : rmem :=
  let '(s, c) := mpn_add_n n (m a) (m b) in
  cond_sub (negb (c =? 0)) (upd m r s) r.

(** lines 22-30 *)
Definition rawAddLS (r a : ptr) (w : Z) (m : rmem) : rmem :=
  let '(s, c) := mpn_add_1 n (m a) w in
  cond_sub (negb (c =? 0)) (upd m r s) r.

(** lines 32-40 *)
Definition rawSub (r a b : ptr) (m : rmem) : rmem :=
  let '(s, c) := mpn_sub_n n (m a) (m b) in
  let m1 := upd m r s in
  if negb (c =? 0) then upd m1 r (fst (mpn_add_n n (m1 r) q)) else m1.

(** lines 42-45; second form with a constant first operand (Fr_q.longVal) *)
Definition rawSubRegular (r a b : ptr) (m : rmem) : rmem :=
  upd m r (fst (mpn_sub_n n (m a) (m b))).
Definition rawSubRegular_q (r b : ptr) (m : rmem) : rmem :=
  upd m r (fst (mpn_sub_n n q (m b))).

(** lines 47-57: pRawA = {rawA} zero-fills the other limbs *)
Definition rawSubSL (r : ptr) (w : Z) (b : ptr) (m : rmem) : rmem :=
  let pa := w :: repeat 0 (n - 1) in
  let '(s, c) := mpn_sub_n n pa (m b) in
  let m1 := upd m r s in
  if negb (c =? 0) then upd m1 r (fst (mpn_add_n n (m1 r) q)) else m1.

(** lines 59-67 *)
Definition rawSubLS (r a : ptr) (w : Z) (m : rmem) : rmem :=
  let '(s, c) := mpn_sub_1 n (m a) w in
  let m1 := upd m r s in
  if negb (c =? 0) then upd m1 r (fst (mpn_add_n n (m1 r) q)) else m1.

(** lines 69-79 *)
Definition rawNeg (r a : ptr) (m : rmem) : rmem :=
  if negb (mpn_cmp (m a) (repeat 0 n) =? 0)
  then upd m r (fst (mpn_sub_n n q (m a)))
  else upd m r (repeat 0 n).

(** lines 82-91: note that r is written before a is read *)
Definition rawNegLS (r a : ptr) (w : Z) (m : rmem) : rmem :=
  let '(s1, c1) := mpn_sub_1 n q w in
  let m1 := upd m r s1 in
  let '(s2, c2) := mpn_sub_n n (m1 r) (m1 a) in
  let m2 := upd m1 r s2 in
  if negb (c1 =? 0) || negb (c2 =? 0)
  then upd m2 r (fst (mpn_add_n n (m2 r) q)) else m2.

(** lines 93-96 *)
Definition rawCopy (r a : ptr) (m : rmem) : rmem := upd m r (m a).

(** lines 98-101 *)
Definition rawIsEq (a b : ptr) (m : rmem) : Z :=
  if mpn_cmp (m a) (m b) =? 0 then 1 else 0.

(** *** Montgomery multiplication, lines 103-153.
    The template unrolls one row per limb of pRawA; [product_i] is the
    argument [p] (N = n64+1 limbs). *)

(** np0 = np * product[0]; addmul_1(product, mq, N, np0) *)
Definition reduce_row (p : list Z) : list Z * Z :=
  let np0 := (p_np P * get p 0) mod B in
  mpn_addmul_1 (S n) p (p_rawq P) np0.

(** lines 115-126 (not canOptimizeConsensys).  [cn] is the value already
    stored in product_{i+1}[N-1] (0 initially, then the mpn_add carry);
    the value returned with the last row is [c]. *)
Fixpoint mmul_loop (b : list Z) (al : list Z) (p : list Z) (cn : Z) : list Z * Z :=
  match al with
  | [] => (p, cn)
  | ai :: al' =>
      let '(p', c1) := reduce_row p in
      let top := (cn + c1) mod B in
      let '(lo, c2) := mpn_addmul_1 n (repeat 0 n) b ai in
      let pn := lo ++ [(top + c2) mod B] in
      let '(pn', c3) := mpn_add (S n) pn (tl p') in
      mmul_loop b al' pn' c3
  end.

(** lines 127-135 (canOptimizeConsensys): the carry of the reduction goes to
    product_{i+1}[1] and the carry of mpn_add is dropped *)
Fixpoint mmul_loop_opt (b : list Z) (al : list Z) (p : list Z) : list Z :=
  match al with
  | [] => p
  | ai :: al' =>
      let '(p', c1) := reduce_row p in
      let '(lo, c2) := mpn_addmul_1 n (set (repeat 0 n) 1 c1) b ai in
      let '(pn', _) := mpn_add (S n) (lo ++ [c2]) (tl p') in
      mmul_loop_opt b al' pn'
  end.

(** lines 136-152, shared epilogue on the result limbs *)
Definition final_sub (c : bool) (l : list Z) : list Z :=
  if c || (mpn_cmp l q >=? 0) then fst (mpn_sub_n n l q) else l.

Definition mmul (a b : list Z) : list Z :=
  let '(lo, c0) := mpn_mul_1 n b (get a 0) in
  let p0 := lo ++ [c0] in
  if p_opt P then
    let p := mmul_loop_opt b (tl a) p0 in
    let '(p', _) := reduce_row p in
    final_sub false (tl p')
  else
    let '(p, c) := mmul_loop b (tl a) p0 0 in
    let '(p', c1) := reduce_row p in
    final_sub (negb ((c + c1) mod B =? 0)) (tl p').

(** The result array is only written after all reads (mpn_copyi, line 140/146). *)
Definition rawMMul (r a b : ptr) (m : rmem) : rmem := upd m r (mmul (m a) (m b)).
(** Same with a constant second operand (Fr_R2.longVal / Fr_R3.longVal). *)
Definition rawMMul_c (r a : ptr) (bl : list Z) (m : rmem) : rmem := upd m r (mmul (m a) bl).

(** lines 155-158 *)
Definition rawMSquare (r a : ptr) (m : rmem) : rmem := rawMMul r a a m.

(** lines 172-180 / 218-226: reduction-only rows (n64-1 of them).  The carry
    goes to product_{i+1}[N-1], or to product_{i+1}[1] when optimised. *)
Fixpoint red_loop (k : nat) (p : list Z) : list Z :=
  match k with
  | O => p
  | S k' =>
      let '(p', c1) := reduce_row p in
      let pn := set (repeat 0 (S n)) (if p_opt P then 1%nat else n) c1 in
      red_loop k' (fst (mpn_add (S n) pn (tl p')))
  end.

Definition red_final (p : list Z) : list Z :=
  let '(p', c) := reduce_row p in
  final_sub (if p_opt P then false else negb (c =? 0)) (tl p').

(** lines 160-198 *)
Definition mmul1 (a : list Z) (w : Z) : list Z :=
  let '(lo, c0) := mpn_mul_1 n a w in
  red_final (red_loop (n - 1) (lo ++ [c0])).
Definition rawMMul1 (r a : ptr) (w : Z) (m : rmem) : rmem := upd m r (mmul1 (m a) w).
Definition rawMMul1_c (r : ptr) (al : list Z) (w : Z) (m : rmem) : rmem := upd m r (mmul1 al w).

(** lines 200-203 *)
Definition rawToMontgomery (r a : ptr) (m : rmem) : rmem := rawMMul_c r a (p_R2 P) m.

(** lines 205-244 *)
Definition fromMont (a : list Z) : list Z := red_final (red_loop (n - 1) (a ++ [0])).
Definition rawFromMontgomery (r a : ptr) (m : rmem) : rmem := upd m r (fromMont (m a)).

(** lines 246-249 *)
Definition rawIsZero (a : ptr) (m : rmem) : Z := if mpn_zero_p (m a) then 1 else 0.

(** lines 251-254 *)
Definition rawCmp (a b : ptr) (m : rmem) : Z := mpn_cmp (m a) (m b).

(** lines 256-263; [t] is the stack array [temp] *)
Definition rawSwap (t r a : ptr) (m : rmem) : rmem :=
  rawCopy a t (rawCopy r a (rawCopy t r m)).

(** lines 265-277 *)
Definition rawCopyS2L (r : ptr) (v : Z) (m : rmem) : rmem :=
  let m1 := upd m r (v mod B :: repeat 0 (n - 1)) in
  if v <? 0
  then let m2 := upd m1 r (get (m1 r) 0 :: repeat (B - 1) (n - 1)) in
       upd m2 r (fst (mpn_add_n n (m2 r) q))
  else m1.

(** r[n64-1] &= lboMask *)
Definition mask_top (m : rmem) (r : ptr) : rmem :=
  upd m r (set (m r) (n - 1) (Z.land (get (m r) (n - 1)) (p_lbo P))).

(** lines 279-313 *)
Definition rawAnd (r a b : ptr) (m : rmem) : rmem :=
  cond_sub false (mask_top (upd m r (mpn_and_n (m a) (m b))) r) r.
Definition rawOr (r a b : ptr) (m : rmem) : rmem :=
  cond_sub false (mask_top (upd m r (mpn_ior_n (m a) (m b))) r) r.
Definition rawXor (r a b : ptr) (m : rmem) : rmem :=
  cond_sub false (mask_top (upd m r (mpn_xor_n (m a) (m b))) r) r.

(** lines 315-335.  Precondition of the code: b < 64*n64 (word_count would
    wrap otherwise); all callers ensure b < bitLength. *)
Definition rawShl (r a : ptr) (b : Z) (m : rmem) : rmem :=
  let bit_shift := b mod 64 in
  let word_shift := Z.to_nat (b / 64) in
  let word_count := (n - word_shift)%nat in
  let m1 := copyi m r word_shift a 0 word_count in
  let m2 := upd m1 r (zero_range (m1 r) 0 word_shift) in
  let m3 := if bit_shift =? 0 then m2 else upd m2 r (mpn_lshift n (m2 r) bit_shift) in
  cond_sub false (mask_top m3 r) r.

(** lines 337-350, same precondition *)
Definition rawShr (r a : ptr) (b : Z) (m : rmem) : rmem :=
  let bit_shift := b mod 64 in
  let word_shift := Z.to_nat (b / 64) in
  let word_count := (n - word_shift)%nat in
  let m1 := copyi m r 0 a word_shift word_count in
  let m2 := upd m1 r (zero_range (m1 r) word_count word_shift) in
  if bit_shift =? 0 then m2 else upd m2 r (mpn_rshift n (m2 r) bit_shift).

(** lines 352-362 *)
Definition rawNot (r a : ptr) (m : rmem) : rmem :=
  cond_sub false (mask_top (upd m r (mpn_com (m a))) r) r.

(** fr_generic.cpp.ejs lines 1625-1628 *)
Definition rawZero (r : ptr) (m : rmem) : rmem := upd m r (repeat 0 n).

End WithParams.
