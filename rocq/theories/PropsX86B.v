(** Property C63: the tagged x86-64 bitwise operations. *)
From Coq Require Import ZArith List Bool Arith Lia.
From Verif Require Import Limbs LimbsFacts Gen GenFacts Spec Fr FrSpec Instances X86 X86Gen X86Call X86T X86TSpec X86TFinal X86TFinal4 X86Inst X86TInst.
Import ListNotations.
Open Scope Z_scope.

(** As in PropsX86T.v: [lay] is where the linker puts the data section, [ra] any return
    address of the calls inside the operation, the rest of the machine is arbitrary.
    [xyields] says that the element at rdi then has the value, and that nothing was written
    but that element and the stack, and the callee-saved registers are kept. *)

(** ** C63 *)
(** The values are the bitwise operation on the canonical representatives, cut to the bits
    of q and reduced.  The sizes excluded are those at which rawMMul1 and rawFromMontgomery
    are wrong (C54); they convert the operands.  The excluded aliasing is refuted below. *)
Theorem C63_x86_band_partial : forall q P, 2 ^ 32 < q -> build q = Some P ->
  let n := p_n64 P in let opt := p_opt P in let D := D2 n opt in
  n <> 7%nat -> ~ (n = 6%nat /\ opt = false) ->
  forall lay ra m a b, 0 <= ra < B -> xready P lay D m -> xdest P lay D m (regs m RDI) ->
  xarg q n D m (regs m RDI) (regs m RSI) a -> xarg q n D m (regs m RDI) (regs m RDX) b ->
  xbit_alias_ok m (regs m RDI) (regs m RSI) (regs m RDX) ->
  exists m', f_bin lay ra n opt Band m = Some m' /\ xyields q n D (regs m RDI) ((Z.land a b mod 2 ^ bitlen q) mod q) m m'.
Proof.
  intros q P H1 H2 n opt D N1 N2 lay ra m a b Hra Rdy Dst A1 A2 AL. apply (F_bin q P (build_ok q P ltac:(lia) H2) lay ra Hra m H1) with (a := a) (b := b) (o := Band); [|exact N1|exact Rdy|exact Dst|exact A1|exact A2|exact AL].
  unfold neededFor. subst n opt. destruct (p_opt P); intros E; [apply N1|apply N2; split; [|reflexivity]]; lia.
Qed.
Print Assumptions C63_x86_band_partial.

Theorem C63_x86_bor_partial : forall q P, 2 ^ 32 < q -> build q = Some P ->
  let n := p_n64 P in let opt := p_opt P in let D := D2 n opt in
  n <> 7%nat -> ~ (n = 6%nat /\ opt = false) ->
  forall lay ra m a b, 0 <= ra < B -> xready P lay D m -> xdest P lay D m (regs m RDI) ->
  xarg q n D m (regs m RDI) (regs m RSI) a -> xarg q n D m (regs m RDI) (regs m RDX) b ->
  xbit_alias_ok m (regs m RDI) (regs m RSI) (regs m RDX) ->
  exists m', f_bin lay ra n opt Bor m = Some m' /\ xyields q n D (regs m RDI) ((Z.lor a b mod 2 ^ bitlen q) mod q) m m'.
Proof.
  intros q P H1 H2 n opt D N1 N2 lay ra m a b Hra Rdy Dst A1 A2 AL. apply (F_bin q P (build_ok q P ltac:(lia) H2) lay ra Hra m H1) with (a := a) (b := b) (o := Bor); [|exact N1|exact Rdy|exact Dst|exact A1|exact A2|exact AL].
  unfold neededFor. subst n opt. destruct (p_opt P); intros E; [apply N1|apply N2; split; [|reflexivity]]; lia.
Qed.
Print Assumptions C63_x86_bor_partial.

Theorem C63_x86_bxor_partial : forall q P, 2 ^ 32 < q -> build q = Some P ->
  let n := p_n64 P in let opt := p_opt P in let D := D2 n opt in
  n <> 7%nat -> ~ (n = 6%nat /\ opt = false) ->
  forall lay ra m a b, 0 <= ra < B -> xready P lay D m -> xdest P lay D m (regs m RDI) ->
  xarg q n D m (regs m RDI) (regs m RSI) a -> xarg q n D m (regs m RDI) (regs m RDX) b ->
  xbit_alias_ok m (regs m RDI) (regs m RSI) (regs m RDX) ->
  exists m', f_bin lay ra n opt Bxor m = Some m' /\ xyields q n D (regs m RDI) ((Z.lxor a b mod 2 ^ bitlen q) mod q) m m'.
Proof.
  intros q P H1 H2 n opt D N1 N2 lay ra m a b Hra Rdy Dst A1 A2 AL. apply (F_bin q P (build_ok q P ltac:(lia) H2) lay ra Hra m H1) with (a := a) (b := b) (o := Bxor); [|exact N1|exact Rdy|exact Dst|exact A1|exact A2|exact AL].
  unfold neededFor. subst n opt. destruct (p_opt P); intros E; [apply N1|apply N2; split; [|reflexivity]]; lia.
Qed.
Print Assumptions C63_x86_bxor_partial.

Theorem C63_x86_bnot_partial : forall q P, 2 ^ 32 < q -> build q = Some P ->
  let n := p_n64 P in let opt := p_opt P in let D := D2 n opt in
  n <> 7%nat -> ~ (n = 6%nat /\ opt = false) ->
  forall lay ra m a, 0 <= ra < B -> xready P lay D m -> xdest P lay D m (regs m RDI) ->
  xarg q n D m (regs m RDI) (regs m RSI) a -> xbnot_alias_ok m (regs m RDI) (regs m RSI) ->
  exists m', f_bnot lay ra n opt m = Some m' /\ xyields q n D (regs m RDI) ((Z.lnot a mod 2 ^ bitlen q) mod q) m m'.
Proof.
  intros q P H1 H2 n opt D N1 N2 lay ra m a Hra Rdy Dst A1 AL. apply (F_bnot q P (build_ok q P ltac:(lia) H2) lay ra Hra m H1); [|exact N1|exact Rdy|exact Dst|exact A1|exact AL].
  unfold neededFor. subst n opt. destruct (p_opt P); intros E; [apply N1|apply N2; split; [|reflexivity]]; lia.
Qed.
Print Assumptions C63_x86_bnot_partial.

(** Non-vacuity: the short -7 and a Montgomery operand, the destination apart (254 bits); in
    place with a long operand and with two non-negative shorts (64 bits). *)
Definition xa := [word_of (-7) SHORT; 11; 12; 13; 14].
Definition xb := word_of 5 LONGMONTGOMERY :: to_limbs 4 (bn_r / 3 * Rad 4 mod bn_r).
Definition xM := xmachine bn_P xa xb [1; 2; 3; 4; 5] 4000 2000 3000.
Definition mo x := [word_of 5 LONGMONTGOMERY; (x * Rad 1) mod gold_q].
Definition gX a b rdi := xmachine gold_P a b [1; 2] rdi 2000 3000.
Definition gL := gX [word_of 9 LONG; 12] (mo 10) 2000.
Definition gT := gX [word_of 12 SHORT; 4] [word_of 10 SHORT; 5] 3000.
Example C63_hyp : 2 ^ 32 < bn_r /\ build bn_r = Some bn_P /\ p_n64 bn_P = 4%nat /\ p_opt bn_P = true /\ xready bn_P lay1 (D2 4 true) xM /\ xdest bn_P lay1 (D2 4 true) xM (regs xM RDI) /\
  xarg bn_r 4 (D2 4 true) xM (regs xM RDI) (regs xM RSI) (bn_r - 7) /\ xarg bn_r 4 (D2 4 true) xM (regs xM RDI) (regs xM RDX) (bn_r / 3) /\
  xbit_alias_ok xM (regs xM RDI) (regs xM RSI) (regs xM RDX) /\ xbnot_alias_ok xM (regs xM RDI) (regs xM RSI) /\
  xbit_alias_ok gL (regs gL RDI) (regs gL RSI) (regs gL RDX) /\ xbnot_alias_ok gL (regs gL RDI) (regs gL RSI) /\
  xbit_alias_ok gT (regs gT RDI) (regs gT RSI) (regs gT RDX).
Proof.
  split; [reflexivity|]. split; [exact bn_build|]. split; [reflexivity|]. split; [reflexivity|]. split; [apply xready_of; vm_compute; reflexivity|]. split; [apply xdest_of; vm_compute; reflexivity|].
  split; [apply xarg_of with (s := -7) (t := SHORT) (l := [11; 12; 13; 14]); vm_compute; reflexivity|].
  split; [apply xarg_of with (s := 5) (t := LONGMONTGOMERY) (l := to_limbs 4 (bn_r / 3 * Rad 4 mod bn_r)); vm_compute; reflexivity|].
  split; [split; discriminate|]. split; [discriminate|]. split; [split; [intros _; left; reflexivity|discriminate]|]. split; [intros _; reflexivity|].
  split; [discriminate|]. intros _. right. split; [reflexivity|]. split; [vm_compute; discriminate|]. intros _. vm_compute. discriminate.
Qed.
Definition gopt := p_opt gold_P.
Definition gM := gX [word_of (-7) SHORT; 11] (mo 1000) 4000.
Example C63_run : map (fun o => readElt 1 4000 (f_bin lay1 777 1 gopt o gM)) [Band; Bor; Bxor] =
    map (fun z => Some (1, LONG, [z], 80008, 77)) [1000; gold_q - 7; gold_q - 1007] /\
  map (fun o => readElt 1 2000 (f_bin lay1 777 1 gopt o gL)) [Band; Bor; Bxor] = map (fun z => Some (9, LONG, [z], 80008, 77)) [8; 14; 6] /\
  map (fun o => readElt 1 3000 (f_bin lay1 777 1 gopt o gT)) [Band; Bor; Bxor] = map (fun z => Some (z, SHORT, [5], 80008, 77)) [8; 14; 6] /\
  readElt 1 4000 (f_bnot lay1 777 1 gopt gM) = Some (1, LONG, [2 ^ 64 - 1 - (gold_q - 7)], 80008, 77) /\
  readElt 1 2000 (f_bnot lay1 777 1 gopt gL) = Some (9, LONG, [2 ^ 64 - 1 - 12 - gold_q], 80008, 77).
Proof. vm_compute. repeat split; reflexivity. Qed.

(** Refuted: in place, with the overwritten operand to be converted.  The type of the
    destination is written before the conversion reads it, so the limbs are taken for those
    of a plain element.  12 in Montgomery form and 10: the results of the three operations
    are not 8, 14 and 6. *)
Definition gR := gX (mo 12) [word_of 5 LONG; 10] 2000.
Theorem C63_x86_inplace_refuted : exists q P lay ra m a b, 2 ^ 32 < q /\ build q = Some P /\ 0 <= ra < B /\
  let n := p_n64 P in let opt := p_opt P in let D := D2 n opt in
  xready P lay D m /\ xdest P lay D m (regs m RDI) /\ xarg q n D m (regs m RDI) (regs m RSI) a /\ xarg q n D m (regs m RDI) (regs m RDX) b /\
  (forall o, exists m', f_bin lay ra n opt o m = Some m' /\ ~ xelt q n m' (regs m RDI) ((bit_op o a b mod 2 ^ bitlen q) mod q)).
Proof.
  exists gold_q, gold_P, lay1, 777, gR, 12, 10. split; [reflexivity|]. split; [exact gold_build|]. split; [split; [discriminate|reflexivity]|]. cbv zeta.
  split; [apply xready_of; vm_compute; reflexivity|]. split; [apply xdest_of; vm_compute; reflexivity|].
  split; [apply xarg_of with (s := 5) (t := LONGMONTGOMERY) (l := [(12 * Rad 1) mod gold_q]); vm_compute; reflexivity|]. split; [apply xarg_of with (s := 5) (t := LONG) (l := [10]); vm_compute; reflexivity|].
  change (p_n64 gold_P) with 1%nat. change (regs gR RDI) with 2000. intros o.
  assert (RD : readElt 1 2000 (f_bin lay1 777 1 (p_opt gold_P) o gR) = Some (5, LONG, [match o with Band => 0 | Bor => 51539607550 | Bxor => 51539607550 end], 80008, 77)) by (destruct o; vm_compute; reflexivity). apply read_inv in RD as (m' & E & T & L). exists m'. split; [exact E|].
  injection L as L. apply (not_xelt gold_q m' 2000 _ LONG _ T L). left. split; [reflexivity|]. destruct o; vm_compute; discriminate.
Qed.
Print Assumptions C63_x86_inplace_refuted.

(** Refuted: the complement of a short in place is that of the limbs lying next to it. *)
Definition gS := gX [word_of 7 SHORT; 11] [word_of 5 LONG; 10] 2000.
Theorem C63_x86_bnot_inplace_refuted : exists q P lay ra m a, 2 ^ 32 < q /\ build q = Some P /\ 0 <= ra < B /\
  let n := p_n64 P in let opt := p_opt P in let D := D2 n opt in
  xready P lay D m /\ xdest P lay D m (regs m RDI) /\ xarg q n D m (regs m RDI) (regs m RSI) a /\ xtype m (regs m RSI) = SHORT /\
  exists m', f_bnot lay ra n opt m = Some m' /\ ~ xelt q n m' (regs m RDI) ((Z.lnot a mod 2 ^ bitlen q) mod q).
Proof.
  exists gold_q, gold_P, lay1, 777, gS, 7. split; [reflexivity|]. split; [exact gold_build|]. split; [split; [discriminate|reflexivity]|]. cbv zeta.
  split; [apply xready_of; vm_compute; reflexivity|]. split; [apply xdest_of; vm_compute; reflexivity|].
  split; [apply xarg_of with (s := 7) (t := SHORT) (l := [11]); vm_compute; reflexivity|]. split; [reflexivity|].
  change (p_n64 gold_P) with 1%nat. change (regs gS RDI) with 2000.
  assert (RD : readElt 1 2000 (f_bnot lay1 777 1 (p_opt gold_P) gS) = Some (7, LONG, [2 ^ 64 - 1 - 11 - gold_q], 80008, 77)) by (vm_compute; reflexivity). apply read_inv in RD as (m' & E & T & L). exists m'. split; [exact E|].
  injection L as L. apply (not_xelt gold_q m' 2000 _ LONG _ T L). left. split; [reflexivity|]. vm_compute. discriminate.
Qed.
Print Assumptions C63_x86_bnot_inplace_refuted.
