(** Properties C58, C59, C60: the tagged x86-64 operations. *)
From Coq Require Import ZArith List Bool Arith Lia.
From Verif Require Import Limbs LimbsFacts Gen GenFacts Spec Fr FrSpec Instances X86 X86Gen X86Call X86T X86TSpec X86TFinal X86TFinal2 X86Inst X86TInst.
Import ListNotations.
Open Scope Z_scope.

(** Throughout: [lay] is where the linker puts the data section, [ra] any return
    address of the calls inside the operation; the contents of the other registers,
    the flags and the rest of the memory are arbitrary.  [xyields] says that the
    element at rdi then has the value, and that nothing was written but that element
    and the stack, and the callee-saved registers are kept.  The operands may be the
    destination or be disjoint from it. *)

(** ** C58 *)
(** The sizes excluded are those at which rawMMul1 and rawFromMontgomery are wrong (C54). *)
Theorem C58_x86_toMontgomery_partial : forall q P, 1 < q -> build q = Some P ->
  let n := p_n64 P in let opt := p_opt P in let D := D1 n opt in
  ~ (n = 7%nat /\ opt = true) -> ~ (n = 6%nat /\ opt = false) ->
  forall lay ra m v, 0 <= ra < B -> xready P lay D m -> xdest P lay D m (regs m RDI) ->
  xarg q n D m (regs m RDI) (regs m RSI) v ->
  exists m', f_toMontgomery lay ra n opt m = Some m' /\ xyields q n D (regs m RDI) v m m' /\
    xtyped (fun t => t = SHORTMONTGOMERY \/ t = LONGMONTGOMERY) q n m' (regs m RDI) v.
Proof.
  intros q P H1 H2 n opt D N1 N2 lay ra m v Hra Rdy Dst Arg. apply (F_toMontgomery q P (build_ok q P H1 H2) lay ra Hra m Rdy Dst v Arg).
  unfold neededFor. subst n opt. destruct (p_opt P); intros E; [apply N1|apply N2]; (split; [lia|reflexivity]).
Qed.
Print Assumptions C58_x86_toMontgomery_partial.

Theorem C58_x86_toNormal_partial : forall q P, 1 < q -> build q = Some P ->
  let n := p_n64 P in let opt := p_opt P in let D := D1 n opt in
  n <> 7%nat -> ~ (n = 6%nat /\ opt = false) ->
  forall lay ra m v, 0 <= ra < B -> xready P lay D m -> xdest P lay D m (regs m RDI) ->
  xarg q n D m (regs m RDI) (regs m RSI) v ->
  exists m', f_toNormal lay ra n opt m = Some m' /\ xyields q n D (regs m RDI) v m m' /\
    xtyped (fun t => t <> LONGMONTGOMERY) q n m' (regs m RDI) v.
Proof.
  intros q P H1 H2 n opt D N1 N2 lay ra m v Hra Rdy Dst Arg. apply (F_toNormal q P (build_ok q P H1 H2) lay ra Hra m Rdy Dst v Arg); [|exact N1].
  unfold neededFor. subst n opt. destruct (p_opt P); intros E; [apply N1|apply N2; split; [|reflexivity]]; lia.
Qed.
Print Assumptions C58_x86_toNormal_partial.

Theorem C58_x86_toLongNormal_partial : forall q P, 2 ^ 32 < q -> build q = Some P ->
  let n := p_n64 P in let opt := p_opt P in let D := D1 n opt in
  n <> 7%nat -> ~ (n = 6%nat /\ opt = false) ->
  forall lay ra m v, 0 <= ra < B -> xready P lay D m -> xdest P lay D m (regs m RDI) ->
  xarg q n D m (regs m RDI) (regs m RSI) v ->
  exists m', f_toLongNormal lay ra n opt m = Some m' /\ xyields q n D (regs m RDI) v m m' /\
    xtyped (fun t => t = LONG) q n m' (regs m RDI) v.
Proof.
  intros q P H1 H2 n opt D N1 N2 lay ra m v Hra Rdy Dst Arg. apply (F_toLongNormal q P (build_ok q P ltac:(lia) H2) lay ra Hra m Rdy Dst v Arg); [|exact N1|exact H1].
  unfold neededFor. subst n opt. destruct (p_opt P); intros E; [apply N1|apply N2; split; [|reflexivity]]; lia.
Qed.
Print Assumptions C58_x86_toLongNormal_partial.

Theorem C58_x86_neg : forall q P, 2 ^ 32 < q -> build q = Some P ->
  let n := p_n64 P in let D := D1 n (p_opt P) in
  forall lay ra m v, 0 <= ra < B -> xready P lay D m -> xdest P lay D m (regs m RDI) ->
  xarg q n D m (regs m RDI) (regs m RSI) v ->
  exists m', f_neg lay ra n m = Some m' /\ xyields q n D (regs m RDI) ((- v) mod q) m m'.
Proof. intros q P H1 H2 n D lay ra m v Hra Rdy Dst Arg. exact (F_neg q P (build_ok q P ltac:(lia) H2) lay ra Hra m Rdy Dst v Arg H1). Qed.
Print Assumptions C58_x86_neg.

(** Non-vacuity: a machine with a 254-bit modulus, the operand a short negative number. *)
Definition xa : list Z := word_of (-7) SHORT :: [11; 12; 13; 14].
Definition xb : list Z := word_of 5 LONGMONTGOMERY :: to_limbs 4 (bn_r / 3 * Rad 4 mod bn_r).
Definition xM := xmachine bn_P xa xb [1; 2; 3; 4; 5] 4000 2000 3000.
Example C58_hyp : 2 ^ 62 < bn_r /\ build bn_r = Some bn_P /\ p_n64 bn_P = 4%nat /\ p_opt bn_P = true /\ xready bn_P lay1 (D1 4 true) xM /\ xdest bn_P lay1 (D1 4 true) xM (regs xM RDI) /\
  xarg bn_r 4 (D1 4 true) xM (regs xM RDI) (regs xM RSI) (bn_r - 7) /\ xarg bn_r 4 (D1 4 true) xM (regs xM RDI) (regs xM RDX) (bn_r / 3).
Proof.
  split; [reflexivity|]. split; [exact bn_build|]. split; [reflexivity|]. split; [reflexivity|]. split; [apply xready_of; vm_compute; reflexivity|]. split; [apply xdest_of; vm_compute; reflexivity|].
  split; [apply xarg_of with (s := -7) (t := SHORT) (l := [11; 12; 13; 14]); vm_compute; reflexivity|].
  apply xarg_of with (s := 5) (t := LONGMONTGOMERY) (l := to_limbs 4 (bn_r / 3 * Rad 4 mod bn_r)); vm_compute; reflexivity.
Qed.
(** runs with the 64-bit modulus: (shortVal, type, limbs, rsp, rbx) *)
Definition gM := xmachine gold_P [word_of (-7) SHORT; 11] [word_of 5 LONGMONTGOMERY; (1000 * Rad 1) mod gold_q] [1; 2] 4000 2000 3000.
Definition gN := xmachine gold_P [word_of (-7) SHORT; 11] [word_of 5 LONGMONTGOMERY; (1000 * Rad 1) mod gold_q] [1; 2] 4000 3000 2000.
Definition gopt := p_opt gold_P.
Example C58_run_toMontgomery : readElt 1 4000 (f_toMontgomery lay1 777 1 gopt gM) = Some (-7, SHORTMONTGOMERY, [(-7 * Rad 1) mod gold_q], 80008, 77).
Proof. vm_compute. reflexivity. Qed.
Example C58_run_toNormal : readElt 1 4000 (f_toNormal lay1 777 1 gopt gN) = Some (1, LONG, [1000], 80008, 77).
Proof. vm_compute. reflexivity. Qed.
Example C58_run_toLongNormal : readElt 1 4000 (f_toLongNormal lay1 777 1 gopt gM) = Some (0, LONG, [gold_q - 7], 80008, 77).
Proof. vm_compute. reflexivity. Qed.
(** negating -2^31 makes a long value *)
Example C58_run_neg : readElt 1 4000 (f_neg lay1 777 1 gM) = Some (7, SHORT, [2], 80008, 77) /\
  readElt 1 4000 (f_neg lay1 777 1 (xmachine gold_P [word_of (- 2 ^ 31) SHORT; 11] [] [1; 2] 4000 2000 3000)) = Some (0, LONG, [2 ^ 31], 80008, 77).
Proof. vm_compute. split; reflexivity. Qed.

(** ** C59 *)
Theorem C59_x86_square : forall q P, 2 ^ 62 < q -> build q = Some P ->
  let n := p_n64 P in let opt := p_opt P in let D := D1 n opt in
  forall lay ra m v, 0 <= ra < B -> xready P lay D m -> xdest P lay D m (regs m RDI) ->
  xarg q n D m (regs m RDI) (regs m RSI) v ->
  exists m', f_square lay ra n opt m = Some m' /\ xyields q n D (regs m RDI) ((v * v) mod q) m m'.
Proof. intros q P H1 H2 n opt D lay ra m v Hra Rdy Dst Arg. exact (F_square q P (build_ok q P ltac:(lia) H2) lay ra Hra m Rdy Dst v Arg H1). Qed.
Print Assumptions C59_x86_square.

(** The sizes excluded are those at which rawMMul1 is wrong (C54). *)
Theorem C59_x86_mul_partial : forall q P, 2 ^ 62 < q -> build q = Some P ->
  let n := p_n64 P in let opt := p_opt P in let D := D1 n opt in
  ~ (n = 7%nat /\ opt = true) -> ~ (n = 6%nat /\ opt = false) ->
  forall lay ra m a b, 0 <= ra < B -> xready P lay D m -> xdest P lay D m (regs m RDI) ->
  xarg q n D m (regs m RDI) (regs m RSI) a -> xarg q n D m (regs m RDI) (regs m RDX) b ->
  exists m', f_mul lay ra n opt m = Some m' /\ xyields q n D (regs m RDI) ((a * b) mod q) m m'.
Proof.
  intros q P H1 H2 n opt D N1 N2 lay ra m a b Hra Rdy Dst A1 A2. apply (F_mul q P (build_ok q P ltac:(lia) H2) lay ra Hra m Rdy Dst a A1 b H1); [|exact A2].
  unfold neededFor. subst n opt. destruct (p_opt P); intros E; [apply N1|apply N2]; (split; [lia|reflexivity]).
Qed.
Print Assumptions C59_x86_mul_partial.

(** Non-vacuity: [C58_hyp] meets the hypotheses (2^62 < q); runs. *)
Example C59_run : readElt 1 4000 (f_square lay1 777 1 gopt gM) = Some (0, LONG, [49], 80008, 77) /\
  readElt 1 4000 (f_square lay1 777 1 gopt gN) = Some (1, LONGMONTGOMERY, [(1000000 * Rad 1) mod gold_q], 80008, 77) /\
  readElt 1 4000 (f_mul lay1 777 1 gopt gM) = Some (1, LONG, [gold_q - 7000], 80008, 77) /\
  readElt 1 4000 (f_mul lay1 777 1 gopt (xmachine gold_P [word_of (-7) SHORT; 11] [word_of 5 LONG; 1000] [1; 2] 4000 2000 3000)) = Some (1, LONGMONTGOMERY, [(-7000 * Rad 1) mod gold_q], 80008, 77).
Proof. vm_compute. repeat split; reflexivity. Qed.

(** ** C60 *)
(** The sizes excluded are those at which rawMMul1 is wrong (C54); it converts a
    short operand.  The excluded aliasing is refuted below. *)
Theorem C60_x86_add_partial : forall q P, 2 ^ 32 < q -> build q = Some P ->
  let n := p_n64 P in let opt := p_opt P in let D := D2 n opt in
  ~ (n = 7%nat /\ opt = true) -> ~ (n = 6%nat /\ opt = false) ->
  forall lay ra m a b, 0 <= ra < B -> xready P lay D m -> xdest P lay D m (regs m RDI) ->
  xarg q n D m (regs m RDI) (regs m RSI) a -> xarg q n D m (regs m RDI) (regs m RDX) b ->
  xadd_alias_ok m (regs m RDI) (regs m RSI) (regs m RDX) ->
  exists m', f_add lay ra n opt m = Some m' /\ xyields q n D (regs m RDI) ((a + b) mod q) m m'.
Proof.
  intros q P H1 H2 n opt D N1 N2 lay ra m a b Hra Rdy Dst A1 A2. apply (F_add q P (build_ok q P ltac:(lia) H2) lay ra Hra m H1); [|exact Rdy|exact Dst|exact A1|exact A2].
  unfold neededFor. subst n opt. destruct (p_opt P); intros E; [apply N1|apply N2]; (split; [lia|reflexivity]).
Qed.
Print Assumptions C60_x86_add_partial.

Theorem C60_x86_sub_partial : forall q P, 2 ^ 32 < q -> build q = Some P ->
  let n := p_n64 P in let opt := p_opt P in let D := D2 n opt in
  ~ (n = 7%nat /\ opt = true) -> ~ (n = 6%nat /\ opt = false) ->
  forall lay ra m a b, 0 <= ra < B -> xready P lay D m -> xdest P lay D m (regs m RDI) ->
  xarg q n D m (regs m RDI) (regs m RSI) a -> xarg q n D m (regs m RDI) (regs m RDX) b ->
  xsub_alias_ok m (regs m RDI) (regs m RSI) (regs m RDX) ->
  exists m', f_sub lay ra n opt m = Some m' /\ xyields q n D (regs m RDI) ((a - b) mod q) m m'.
Proof.
  intros q P H1 H2 n opt D N1 N2 lay ra m a b Hra Rdy Dst A1 A2. apply (F_sub q P (build_ok q P ltac:(lia) H2) lay ra Hra m H1); [|exact Rdy|exact Dst|exact A1|exact A2].
  unfold neededFor. subst n opt. destruct (p_opt P); intros E; [apply N1|apply N2]; (split; [lia|reflexivity]).
Qed.
Print Assumptions C60_x86_sub_partial.

(** Non-vacuity: a short negative operand, a Montgomery one, the destination apart (254
    bits); in place with two Montgomery operands (64 bits). *)
Definition gI := xmachine gold_P [word_of (-7) SHORT; 11] [word_of 5 LONGMONTGOMERY; (1000 * Rad 1) mod gold_q] [1; 2] 3000 3000 3000.
Example C60_hyp : xready bn_P lay1 (D2 4 true) xM /\ xdest bn_P lay1 (D2 4 true) xM (regs xM RDI) /\
  xarg bn_r 4 (D2 4 true) xM (regs xM RDI) (regs xM RSI) (bn_r - 7) /\ xarg bn_r 4 (D2 4 true) xM (regs xM RDI) (regs xM RDX) (bn_r / 3) /\
  xadd_alias_ok xM (regs xM RDI) (regs xM RSI) (regs xM RDX) /\ xsub_alias_ok xM (regs xM RDI) (regs xM RSI) (regs xM RDX) /\
  xadd_alias_ok gI (regs gI RDI) (regs gI RSI) (regs gI RDX) /\ xsub_alias_ok gI (regs gI RDI) (regs gI RSI) (regs gI RDX).
Proof.
  split; [apply xready_of; vm_compute; reflexivity|]. split; [apply xdest_of; vm_compute; reflexivity|].
  split; [apply xarg_of with (s := -7) (t := SHORT) (l := [11; 12; 13; 14]); vm_compute; reflexivity|].
  split; [apply xarg_of with (s := 5) (t := LONGMONTGOMERY) (l := to_limbs 4 (bn_r / 3 * Rad 4 mod bn_r)); vm_compute; reflexivity|].
  split; [split; discriminate|]. split; [split; [split; discriminate|discriminate]|]. split; [split; intros _ H; vm_compute in H; discriminate H|]. split; [split; intros _ H; vm_compute in H; discriminate H|]. intros _ H. vm_compute in H. discriminate H.
Qed.
Example C60_run : readElt 1 4000 (f_add lay1 777 1 gopt gM) = Some (1, LONGMONTGOMERY, [(993 * Rad 1) mod gold_q], 80008, 77) /\
  readElt 1 4000 (f_sub lay1 777 1 gopt gM) = Some (1, LONGMONTGOMERY, [(-1007 * Rad 1) mod gold_q], 80008, 77) /\
  readElt 1 4000 (f_sub lay1 777 1 gopt gN) = Some (1, LONGMONTGOMERY, [(1007 * Rad 1) mod gold_q], 80008, 77) /\
  readElt 1 3000 (f_add lay1 777 1 gopt gI) = Some (5, LONGMONTGOMERY, [(2000 * Rad 1) mod gold_q], 80008, 77) /\
  readElt 1 4000 (f_add lay1 777 1 gopt (xmachine gold_P [word_of (2 ^ 31 - 1) SHORT; 11] [word_of 1 SHORT; 12] [1; 2] 4000 2000 3000)) = Some (0, LONG, [2 ^ 31], 80008, 77) /\
  readElt 1 4000 (f_sub lay1 777 1 gopt (xmachine gold_P [word_of (-3) SHORT; 11] [word_of 1 LONG; 12] [1; 2] 4000 2000 3000)) = Some (1, LONG, [gold_q - 15], 80008, 77).
Proof. vm_compute. repeat split; reflexivity. Qed.

(** Refuted: in place, with the overwritten operand to be converted.  The type of the
    destination is written before the conversion reads it, so the limbs next to the short
    -7 are taken for its Montgomery form: the results are not -7 + 1000 and -7 - 1000. *)
Definition gR := xmachine gold_P [word_of (-7) SHORT; 11] [word_of 5 LONGMONTGOMERY; (1000 * Rad 1) mod gold_q] [1; 2] 2000 2000 3000.
Theorem C60_x86_inplace_refuted : exists q P lay ra m a b, 2 ^ 32 < q /\ build q = Some P /\ 0 <= ra < B /\
  let n := p_n64 P in let opt := p_opt P in let D := D2 n opt in
  xready P lay D m /\ xdest P lay D m (regs m RDI) /\ xarg q n D m (regs m RDI) (regs m RSI) a /\ xarg q n D m (regs m RDI) (regs m RDX) b /\
  (exists m', f_add lay ra n opt m = Some m' /\ ~ xelt q n m' (regs m RDI) ((a + b) mod q)) /\
  (exists m', f_sub lay ra n opt m = Some m' /\ ~ xelt q n m' (regs m RDI) ((a - b) mod q)).
Proof.
  exists gold_q, gold_P, lay1, 777, gR, (gold_q - 7), 1000. split; [reflexivity|]. split; [exact gold_build|]. split; [split; [discriminate|reflexivity]|]. cbv zeta.
  split; [apply xready_of; vm_compute; reflexivity|]. split; [apply xdest_of; vm_compute; reflexivity|].
  split; [apply xarg_of with (s := -7) (t := SHORT) (l := [11]); vm_compute; reflexivity|]. split; [apply xarg_of with (s := 5) (t := LONGMONTGOMERY) (l := [(1000 * Rad 1) mod gold_q]); vm_compute; reflexivity|].
  change (p_n64 gold_P) with 1%nat. change (regs gR RDI) with 2000. split.
  - assert (RD : readElt 1 2000 (f_add lay1 777 1 (p_opt gold_P) gR) = Some (-7, LONGMONTGOMERY, [4294967295011], 80008, 77)) by (vm_compute; reflexivity). apply read_inv in RD as (m' & E & T & L). exists m'. split; [exact E|].
    injection L as L. apply (not_xelt gold_q m' 2000 _ LONGMONTGOMERY 4294967295011 T L). right. split; [reflexivity|vm_compute; discriminate].
  - assert (RD : readElt 1 2000 (f_sub lay1 777 1 (p_opt gold_P) gR) = Some (-7, LONGMONTGOMERY, [18446739774447289332], 80008, 77)) by (vm_compute; reflexivity). apply read_inv in RD as (m' & E & T & L). exists m'. split; [exact E|].
    injection L as L. apply (not_xelt gold_q m' 2000 _ LONGMONTGOMERY 18446739774447289332 T L). right. split; [reflexivity|vm_compute; discriminate].
Qed.
Print Assumptions C60_x86_inplace_refuted.

(** Refuted: a negative short minus a long value stored over that value: -3 - 12 becomes 0,
    for rawNegLS writes its destination before it reads its operand. *)
Definition gS := xmachine gold_P [word_of (-3) SHORT; 11] [word_of 1 LONG; 12] [1; 2] 3000 2000 3000.
Theorem C60_x86_sub_over_second_refuted : exists q P lay ra m a b, 2 ^ 32 < q /\ build q = Some P /\ 0 <= ra < B /\
  let n := p_n64 P in let opt := p_opt P in let D := D2 n opt in
  xready P lay D m /\ xdest P lay D m (regs m RDI) /\ xarg q n D m (regs m RDI) (regs m RSI) a /\ xarg q n D m (regs m RDI) (regs m RDX) b /\
  xadd_alias_ok m (regs m RDI) (regs m RSI) (regs m RDX) /\ (a - b) mod q <> 0 /\
  exists m', f_sub lay ra n opt m = Some m' /\ xelt q n m' (regs m RDI) 0 /\ ~ xelt q n m' (regs m RDI) ((a - b) mod q).
Proof.
  exists gold_q, gold_P, lay1, 777, gS, (gold_q - 3), 12. split; [reflexivity|]. split; [exact gold_build|]. split; [split; [discriminate|reflexivity]|]. cbv zeta.
  split; [apply xready_of; vm_compute; reflexivity|]. split; [apply xdest_of; vm_compute; reflexivity|].
  split; [apply xarg_of with (s := -3) (t := SHORT) (l := [11]); vm_compute; reflexivity|]. split; [apply xarg_of with (s := 1) (t := LONG) (l := [12]); vm_compute; reflexivity|].
  split; [split; [discriminate|intros _ _ H; vm_compute in H; discriminate H]|]. split; [vm_compute; discriminate|].
  change (p_n64 gold_P) with 1%nat. change (regs gS RDI) with 3000.
  assert (RD : option_map (fun m => at_addrb m 3000 [word_of 1 LONG; 0]) (f_sub lay1 777 1 (p_opt gold_P) gS) = Some true) by (vm_compute; reflexivity). destruct (f_sub lay1 777 1 (p_opt gold_P) gS) as [m'|]; [|discriminate RD]. injection RD as RD. apply at_addrb_ok in RD. exists m'. split; [reflexivity|]. split.
  - exists 1, LONG, [0]. split; [split; [split; [discriminate|reflexivity]|]; split; [apply limbs_okb_ok; reflexivity|exact RD]|apply denotes_of; vm_compute; reflexivity].
  - destruct RD as (_ & _ & _ & RD). apply (not_xelt gold_q m' 3000 _ LONG 0); [|exact (RD 1%nat ltac:(cbn; lia))|left; split; [reflexivity|vm_compute; discriminate]]. pose proof (RD 0%nat ltac:(cbn; lia)) as H. cbn [nth] in H. change (3000 + 8 * Z.of_nat 0) with 3000 in H. rewrite H. reflexivity.
Qed.
Print Assumptions C60_x86_sub_over_second_refuted.
