(** Vocabulary of the statements about the tagged x86-64 operations. *)
From Coq Require Import ZArith List.
From Verif Require Import Limbs Gen Spec Fr FrSpec X86 X86Call X86T.
Import ListNotations.
Open Scope Z_scope.

(** the first word of an element: shortVal and type (fr.hpp.ejs, struct FrElement) *)
Definition word_of (s t : Z) : Z := s mod W32 + t * W32.
(** the element stored at [p] with fields s, t, l *)
Definition xfields (n : nat) (m : mach) (p s t : Z) (l : list Z) : Prop := is_int32 s /\ limbs_ok n l /\ at_addr m p (word_of s t :: l).
(** ... denotes the field value [v] *)
Definition xelt (q : Z) (n : nat) (m : mach) (p v : Z) : Prop := exists s t l, xfields n m p s t l /\ denotes q n s t l v.
(** the data section (fr.asm.ejs lines 53-70) *)
Definition data (P : zq) (s : sym) : list Z :=
  match s with Sq => p_q P | Snp => [p_np P] | Shalf => p_half P | SR2 => p_R2 P | SR3 => p_R3 P | SlboMask => [p_lbo P] end.
(** [k] words at [p] away from [D] bytes of stack and the return address *)
Definition xoff (D : Z) (m : mach) (p : Z) (k : nat) : Prop := p + 8 * Z.of_nat k <= regs m RSP - D \/ regs m RSP + 8 <= p.
(** registers and words are 64-bit, there are [D] bytes of stack, the data section is in place *)
Record xready (P : zq) (lay : sym -> Z) (D : Z) (m : mach) : Prop := {
  xr_words : words m;
  xr_align : regs m RSP mod 8 = 0;
  xr_room : D <= regs m RSP;
  xr_data : forall s, at_addr m (lay s) (data P s) /\ xoff D m (lay s) (length (data P s)) }.
(** an element the caller may have overwritten: off the stack and the data section *)
Record xdest (P : zq) (lay : sym -> Z) (D : Z) (m : mach) (p : Z) : Prop := {
  xd_pos : 0 <= p;
  xd_align : p mod 8 = 0;
  xd_top : p + 8 * Z.of_nat (S (p_n64 P)) <= B;
  xd_off : xoff D m p (S (p_n64 P));
  xd_data : forall s, lay s + 8 * Z.of_nat (length (data P s)) <= p \/ p + 8 * Z.of_nat (S (p_n64 P)) <= lay s }.
(** two elements that do not overlap *)
Definition xapart (n : nat) (p p' : Z) : Prop := p + 8 * Z.of_nat (S n) <= p' \/ p' + 8 * Z.of_nat (S n) <= p.
(** the result of an operation storing the value [v] at [p]: nothing but [p] and the stack
    below the return address is written, and the registers of the System V convention are kept *)
Definition xframe (D : Z) (k : nat) (p : Z) (m m' : mach) : Prop :=
  words m' /\ (forall x, ~ (p <= x < p + 8 * Z.of_nat k) -> ~ (regs m RSP - D <= x < regs m RSP) -> mem m' x = mem m x) /\
  (forall r, callee_saved r -> regs m' r = regs m r) /\ regs m' RSP = (regs m RSP + 8) mod B.
Definition xyields (q : Z) (n : nat) (D : Z) (p v : Z) (m m' : mach) : Prop := xelt q n m' p v /\ xframe D (S n) p m m'.
(** ... with a type in [T] *)
Definition xtyped (T : Z -> Prop) (q : Z) (n : nat) (m : mach) (p v : Z) : Prop := exists s t l, xfields n m p s t l /\ denotes q n s t l v /\ T t.
(** an operand: an element off the stack, equal to or disjoint from the destination [pr] *)
Definition xarg (q : Z) (n : nat) (D : Z) (m : mach) (pr p v : Z) : Prop := xelt q n m p v /\ xoff D m p (S n) /\ (p = pr \/ xapart n p pr).
(** bytes of stack below the return address: two calls deep, and with two temporary elements *)
Definition D1 (n : nat) (opt : bool) : Z := stackBytes n opt + 32.
Definition D2 (n : nat) (opt : bool) : Z := stackBytes n opt + 16 * Z.of_nat (S n) + 160.
(** the fields of the element at [p] *)
Definition xtype (m : mach) (p : Z) : Z := mem m p / W32.
Definition xshort (m : mach) (p : Z) : Z := sx32 (mem m p).
(** aliasing of addition and subtraction, as in FrSpec: the operand that is
    overwritten is not the one to be converted to Montgomery form *)
Definition xadd_alias_ok (m : mach) (r a b : Z) : Prop :=
  (r = a -> isMont (xtype m a) = false -> xtype m b <> LONGMONTGOMERY) /\
  (r = b -> isMont (xtype m b) = false -> xtype m a <> LONGMONTGOMERY).
Definition xsub_alias_ok (m : mach) (r a b : Z) : Prop :=
  xadd_alias_ok m r a b /\ (r = b -> xtype m b = LONG -> isLong (xtype m a) = false -> 0 <= xshort m a).
(** aliasing of the bitwise operations, as in FrSpec: an operand that is overwritten is
    plain, or short and together with the other one of the shorts handled at once *)
Definition xbit_alias1 (m : mach) (r a b : Z) : Prop :=
  r = a -> xtype m a = LONG \/ (isLong (xtype m a) = false /\ 0 <= xshort m a /\ (isLong (xtype m b) = false -> 0 <= xshort m b)).
Definition xbit_alias_ok (m : mach) (r a b : Z) : Prop := xbit_alias1 m r a b /\ xbit_alias1 m r b a.
Definition xbnot_alias_ok (m : mach) (r a : Z) : Prop := r = a -> xtype m a = LONG.
