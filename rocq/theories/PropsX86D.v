(** Property C65: the tagged x86-64 shifts. *)
From Coq Require Import ZArith List Bool Arith Lia.
From Verif Require Import Limbs LimbsFacts Gen GenFacts Spec Fr FrSpec FrFacts3 Instances X86 X86Gen X86Call X86T X86TSpec X86TFinal X86TFinal6 X86Inst X86TInst.
Import ListNotations.
Open Scope Z_scope.

(** As in PropsX86T.v: [lay] is where the linker puts the data section, [ra] any return
    address of the calls inside the operation, the rest of the machine is arbitrary.
    [xyields] says that the element at rdi then has the value, and that nothing was written
    but that element and the stack, and the callee-saved registers are kept. *)

(** ** C65 *)
(** A count below bitLength(q) shifts forward, one within bitLength(q) of q shifts the other
    way by q minus the count, any other gives zero.  Operands equal to each other or to the
    destination are allowed.  The sizes excluded are those at which rawMMul1 and
    rawFromMontgomery are wrong (C54); they convert the operands.  The bound on the bit
    length is that of the immediate operand of the comparisons. *)
Theorem C65_x86_shl_partial : forall q P, 2 ^ 32 < q -> bitlen q < 2 ^ 31 -> build q = Some P ->
  let n := p_n64 P in let opt := p_opt P in let D := D3 n opt in
  n <> 7%nat -> ~ (n = 6%nat /\ opt = false) ->
  forall lay ra m a b, 0 <= ra < B -> xready P lay D m -> xdest P lay D m (regs m RDI) ->
  xarg q n D m (regs m RDI) (regs m RSI) a -> xarg q n D m (regs m RDI) (regs m RDX) b ->
  exists m', f_shl lay ra n opt (p_bits P) m = Some m' /\
    xyields q n D (regs m RDI) (if b <? bitlen q then (a * 2 ^ b mod 2 ^ bitlen q) mod q else if q - b <? bitlen q then a / 2 ^ (q - b) else 0) m m'.
Proof.
  intros q P H1 H3 H2 n opt D N1 N2 lay ra m a b Hra Rdy Dst A1 A2. pose proof (build_ok q P ltac:(lia) H2) as OK. rewrite <- (bits_eq q P OK) in H3.
  apply (F_shift q P OK lay ra Hra m H1 H3) with (up := true) (a := a) (b := b); [|exact N1|exact Rdy|exact Dst|exact A1|exact A2].
  unfold neededFor. subst n opt. destruct (p_opt P); intros E; [apply N1|apply N2; split; [|reflexivity]]; lia.
Qed.
Print Assumptions C65_x86_shl_partial.

Theorem C65_x86_shr_partial : forall q P, 2 ^ 32 < q -> bitlen q < 2 ^ 31 -> build q = Some P ->
  let n := p_n64 P in let opt := p_opt P in let D := D3 n opt in
  n <> 7%nat -> ~ (n = 6%nat /\ opt = false) ->
  forall lay ra m a b, 0 <= ra < B -> xready P lay D m -> xdest P lay D m (regs m RDI) ->
  xarg q n D m (regs m RDI) (regs m RSI) a -> xarg q n D m (regs m RDI) (regs m RDX) b ->
  exists m', f_shr lay ra n opt (p_bits P) m = Some m' /\
    xyields q n D (regs m RDI) (if b <? bitlen q then a / 2 ^ b else if q - b <? bitlen q then (a * 2 ^ (q - b) mod 2 ^ bitlen q) mod q else 0) m m'.
Proof.
  intros q P H1 H3 H2 n opt D N1 N2 lay ra m a b Hra Rdy Dst A1 A2. pose proof (build_ok q P ltac:(lia) H2) as OK. rewrite <- (bits_eq q P OK) in H3.
  apply (F_shift q P OK lay ra Hra m H1 H3) with (up := false) (a := a) (b := b); [|exact N1|exact Rdy|exact Dst|exact A1|exact A2].
  unfold neededFor. subst n opt. destruct (p_opt P); intros E; [apply N1|apply N2; split; [|reflexivity]]; lia.
Qed.
Print Assumptions C65_x86_shr_partial.

(** Non-vacuity: a 254-bit modulus, the short -7 shifted by -1 in Montgomery form, the
    destination the count. *)
Definition dM := xmachine bn_P [word_of (-7) SHORT; 11; 12; 13; 14] (word_of 5 LONGMONTGOMERY :: to_limbs 4 ((bn_r - 1) * Rad 4 mod bn_r)) [] 3000 2000 3000.
Example C65_hyp : 2 ^ 32 < bn_r /\ bitlen bn_r < 2 ^ 31 /\ build bn_r = Some bn_P /\ p_n64 bn_P = 4%nat /\ p_opt bn_P = true /\ xready bn_P lay1 (D3 4 true) dM /\ xdest bn_P lay1 (D3 4 true) dM (regs dM RDI) /\
  xarg bn_r 4 (D3 4 true) dM (regs dM RDI) (regs dM RSI) (bn_r - 7) /\ xarg bn_r 4 (D3 4 true) dM (regs dM RDI) (regs dM RDX) (bn_r - 1).
Proof.
  split; [reflexivity|]. split; [vm_compute; reflexivity|]. split; [exact bn_build|]. split; [reflexivity|]. split; [reflexivity|]. split; [apply xready_of; vm_compute; reflexivity|]. split; [apply xdest_of; vm_compute; reflexivity|].
  split; [apply xarg_of with (s := -7) (t := SHORT) (l := [11; 12; 13; 14]); vm_compute; reflexivity|].
  apply xarg_of with (s := 5) (t := LONGMONTGOMERY) (l := to_limbs 4 ((bn_r - 1) * Rad 4 mod bn_r)); vm_compute; reflexivity.
Qed.
(** One limb, in place: short, negative and long operands by counts that are short, negative,
    long, in Montgomery form, and too large either way. *)
Definition dg (a b : list Z) := xmachine gold_P a b [] 2000 2000 3000.
Definition gmo x := [word_of 5 LONGMONTGOMERY; (x * Rad 1) mod gold_q].
Definition gsh s := [word_of s SHORT; 4].
Definition glo x := [word_of 9 LONG; x].
Example C65_run : let go f a b := readElt 1 2000 (f lay1 777 1%nat (p_opt gold_P) 64 (dg a b)) in
  go f_shl (gsh 12) (gsh 3) = Some (96, SHORT, [4], 80008, 77) /\
  go f_shl (gsh 12) (glo 40) = Some (12, LONG, [12 * 2 ^ 40], 80008, 77) /\
  go f_shl (gsh (-7)) (gmo 1) = Some (-7, LONG, [((gold_q - 7) * 2 mod 2 ^ 64) mod gold_q], 80008, 77) /\
  go f_shl (gmo 1000) (gsh (-2)) = Some (5, LONG, [250], 80008, 77) /\
  go f_shl (gmo 1000) (gsh 64) = Some (0, SHORT, [(1000 * Rad 1) mod gold_q], 80008, 77) /\
  go f_shr (glo 1000) (gmo 3) = Some (9, LONG, [125], 80008, 77) /\
  go f_shr (glo 1000) (glo (gold_q - 3)) = Some (9, LONG, [8000], 80008, 77) /\
  go f_shr (glo 1000) (glo (gold_q / 2)) = Some (0, SHORT, [1000], 80008, 77).
Proof. vm_compute. repeat split; reflexivity. Qed.
