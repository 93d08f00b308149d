(** Properties C61, C62: the tagged x86-64 comparisons and logical operations. *)
From Coq Require Import ZArith List Bool Arith Lia.
From Verif Require Import Limbs LimbsFacts Gen GenFacts Spec Fr FrSpec Instances X86 X86Gen X86Call X86T X86TSpec X86TFinal X86TFinal3 X86Inst X86TInst.
Import ListNotations.
Open Scope Z_scope.

(** As in PropsX86T.v: [lay] is where the linker puts the data section, [ra] any return
    address of the calls inside the operation, the rest of the machine is arbitrary.
    [xyields] says that the element at rdi then has the value, and that nothing was written
    but that element and the stack, and the callee-saved registers are kept.  The operands
    may overlap the destination and each other in any way. *)

(** ** C61 *)
(** [signed q] is the representative between -q/2 and q/2.  The sizes excluded are those at
    which rawMMul1 and rawFromMontgomery are wrong (C54); they convert the operands. *)
Theorem C61_x86_eq_partial : forall q P, 2 ^ 32 < q -> build q = Some P ->
  let n := p_n64 P in let opt := p_opt P in let D := D2 n opt in
  n <> 7%nat -> ~ (n = 6%nat /\ opt = false) ->
  forall lay ra m a b, 0 <= ra < B -> xready P lay D m -> xdest P lay D m (regs m RDI) ->
  xelt q n m (regs m RSI) a -> xoff D m (regs m RSI) (S n) -> xelt q n m (regs m RDX) b -> xoff D m (regs m RDX) (S n) ->
  exists m', f_eq lay ra n opt m = Some m' /\ xyields q n D (regs m RDI) (Z.b2z (a =? b)) m m'.
Proof.
  intros q P H1 H2 n opt D N1 N2 lay ra m a b Hra Rdy Dst A1 O1 A2 O2. apply (F_eq q P (build_ok q P ltac:(lia) H2) lay ra Hra m H1 a b A1 A2); [|exact N1|exact Rdy|exact Dst|exact O1|exact O2].
  unfold neededFor. subst n opt. destruct (p_opt P); intros E; [apply N1|apply N2; split; [|reflexivity]]; lia.
Qed.
Print Assumptions C61_x86_eq_partial.

Theorem C61_x86_neq_partial : forall q P, 2 ^ 32 < q -> build q = Some P ->
  let n := p_n64 P in let opt := p_opt P in let D := D2 n opt in
  n <> 7%nat -> ~ (n = 6%nat /\ opt = false) ->
  forall lay ra m a b, 0 <= ra < B -> xready P lay D m -> xdest P lay D m (regs m RDI) ->
  xelt q n m (regs m RSI) a -> xoff D m (regs m RSI) (S n) -> xelt q n m (regs m RDX) b -> xoff D m (regs m RDX) (S n) ->
  exists m', f_neq lay ra n opt m = Some m' /\ xyields q n D (regs m RDI) (Z.b2z (negb (a =? b))) m m'.
Proof.
  intros q P H1 H2 n opt D N1 N2 lay ra m a b Hra Rdy Dst A1 O1 A2 O2. apply (F_neq q P (build_ok q P ltac:(lia) H2) lay ra Hra m H1 a b A1 A2); [|exact N1|exact Rdy|exact Dst|exact O1|exact O2].
  unfold neededFor. subst n opt. destruct (p_opt P); intros E; [apply N1|apply N2; split; [|reflexivity]]; lia.
Qed.
Print Assumptions C61_x86_neq_partial.

Theorem C61_x86_lt_partial : forall q P, 2 ^ 32 < q -> build q = Some P ->
  let n := p_n64 P in let opt := p_opt P in let D := D2 n opt in
  n <> 7%nat -> ~ (n = 6%nat /\ opt = false) ->
  forall lay ra m a b, 0 <= ra < B -> xready P lay D m -> xdest P lay D m (regs m RDI) ->
  xelt q n m (regs m RSI) a -> xoff D m (regs m RSI) (S n) -> xelt q n m (regs m RDX) b -> xoff D m (regs m RDX) (S n) ->
  exists m', f_lt lay ra n opt m = Some m' /\ xyields q n D (regs m RDI) (Z.b2z (signed q a <? signed q b)) m m'.
Proof.
  intros q P H1 H2 n opt D N1 N2 lay ra m a b Hra Rdy Dst A1 O1 A2 O2. apply (F_lt q P (build_ok q P ltac:(lia) H2) lay ra Hra m H1 a b A1 A2); [|exact N1|exact Rdy|exact Dst|exact O1|exact O2].
  unfold neededFor. subst n opt. destruct (p_opt P); intros E; [apply N1|apply N2; split; [|reflexivity]]; lia.
Qed.
Print Assumptions C61_x86_lt_partial.

Theorem C61_x86_gt_partial : forall q P, 2 ^ 32 < q -> build q = Some P ->
  let n := p_n64 P in let opt := p_opt P in let D := D2 n opt in
  n <> 7%nat -> ~ (n = 6%nat /\ opt = false) ->
  forall lay ra m a b, 0 <= ra < B -> xready P lay D m -> xdest P lay D m (regs m RDI) ->
  xelt q n m (regs m RSI) a -> xoff D m (regs m RSI) (S n) -> xelt q n m (regs m RDX) b -> xoff D m (regs m RDX) (S n) ->
  exists m', f_gt lay ra n opt m = Some m' /\ xyields q n D (regs m RDI) (Z.b2z (signed q b <? signed q a)) m m'.
Proof.
  intros q P H1 H2 n opt D N1 N2 lay ra m a b Hra Rdy Dst A1 O1 A2 O2. apply (F_gt q P (build_ok q P ltac:(lia) H2) lay ra Hra m H1 a b A1 A2); [|exact N1|exact Rdy|exact Dst|exact O1|exact O2].
  unfold neededFor. subst n opt. destruct (p_opt P); intros E; [apply N1|apply N2; split; [|reflexivity]]; lia.
Qed.
Print Assumptions C61_x86_gt_partial.

Theorem C61_x86_leq_partial : forall q P, 2 ^ 32 < q -> build q = Some P ->
  let n := p_n64 P in let opt := p_opt P in let D := D2 n opt in
  n <> 7%nat -> ~ (n = 6%nat /\ opt = false) ->
  forall lay ra m a b, 0 <= ra < B -> xready P lay D m -> xdest P lay D m (regs m RDI) ->
  xelt q n m (regs m RSI) a -> xoff D m (regs m RSI) (S n) -> xelt q n m (regs m RDX) b -> xoff D m (regs m RDX) (S n) ->
  exists m', f_leq lay ra n opt m = Some m' /\ xyields q n D (regs m RDI) (Z.b2z (signed q a <=? signed q b)) m m'.
Proof.
  intros q P H1 H2 n opt D N1 N2 lay ra m a b Hra Rdy Dst A1 O1 A2 O2. apply (F_leq q P (build_ok q P ltac:(lia) H2) lay ra Hra m H1 a b A1 A2); [|exact N1|exact Rdy|exact Dst|exact O1|exact O2].
  unfold neededFor. subst n opt. destruct (p_opt P); intros E; [apply N1|apply N2; split; [|reflexivity]]; lia.
Qed.
Print Assumptions C61_x86_leq_partial.

Theorem C61_x86_geq_partial : forall q P, 2 ^ 32 < q -> build q = Some P ->
  let n := p_n64 P in let opt := p_opt P in let D := D2 n opt in
  n <> 7%nat -> ~ (n = 6%nat /\ opt = false) ->
  forall lay ra m a b, 0 <= ra < B -> xready P lay D m -> xdest P lay D m (regs m RDI) ->
  xelt q n m (regs m RSI) a -> xoff D m (regs m RSI) (S n) -> xelt q n m (regs m RDX) b -> xoff D m (regs m RDX) (S n) ->
  exists m', f_geq lay ra n opt m = Some m' /\ xyields q n D (regs m RDI) (Z.b2z (signed q b <=? signed q a)) m m'.
Proof.
  intros q P H1 H2 n opt D N1 N2 lay ra m a b Hra Rdy Dst A1 O1 A2 O2. apply (F_geq q P (build_ok q P ltac:(lia) H2) lay ra Hra m H1 a b A1 A2); [|exact N1|exact Rdy|exact Dst|exact O1|exact O2].
  unfold neededFor. subst n opt. destruct (p_opt P); intros E; [apply N1|apply N2; split; [|reflexivity]]; lia.
Qed.
Print Assumptions C61_x86_geq_partial.

(** Non-vacuity: a 254-bit modulus, a short negative operand and a long Montgomery one. *)
Definition xa : list Z := word_of (-7) SHORT :: [11; 12; 13; 14].
Definition xb : list Z := word_of 5 LONGMONTGOMERY :: to_limbs 4 (bn_r / 3 * Rad 4 mod bn_r).
Definition xM := xmachine bn_P xa xb [1; 2; 3; 4; 5] 4000 2000 3000.
Example C61_hyp : 2 ^ 32 < bn_r /\ build bn_r = Some bn_P /\ p_n64 bn_P = 4%nat /\ p_opt bn_P = true /\ xready bn_P lay1 (D2 4 true) xM /\ xdest bn_P lay1 (D2 4 true) xM (regs xM RDI) /\
  xelt bn_r 4 xM (regs xM RSI) (bn_r - 7) /\ xoff (D2 4 true) xM (regs xM RSI) 5 /\ xelt bn_r 4 xM (regs xM RDX) (bn_r / 3) /\ xoff (D2 4 true) xM (regs xM RDX) 5 /\
  signed bn_r (bn_r - 7) = -7 /\ signed bn_r (bn_r / 3) = bn_r / 3.
Proof.
  split; [reflexivity|]. split; [exact bn_build|]. split; [reflexivity|]. split; [reflexivity|]. split; [apply xready_of; vm_compute; reflexivity|]. split; [apply xdest_of; vm_compute; reflexivity|].
  assert (A : xarg bn_r 4 (D2 4 true) xM (regs xM RDI) (regs xM RSI) (bn_r - 7)) by (apply xarg_of with (s := -7) (t := SHORT) (l := [11; 12; 13; 14]); vm_compute; reflexivity).
  assert (B : xarg bn_r 4 (D2 4 true) xM (regs xM RDI) (regs xM RDX) (bn_r / 3)) by (apply xarg_of with (s := 5) (t := LONGMONTGOMERY) (l := to_limbs 4 (bn_r / 3 * Rad 4 mod bn_r)); vm_compute; reflexivity).
  split; [apply A|]. split; [apply A|]. split; [apply B|]. split; [apply B|]. split; vm_compute; reflexivity.
Qed.
(** runs with the 64-bit modulus, the short -7 at 2000 and the Montgomery form of 1000 at
    3000: (shortVal, type, limbs, rsp, rbx) of the result at 4000 *)
Definition gopt := p_opt gold_P.
Definition gM := xmachine gold_P [word_of (-7) SHORT; 11] [word_of 5 LONGMONTGOMERY; (1000 * Rad 1) mod gold_q] [1; 2] 4000 2000 3000.
(** ... and, in place, the long q - 7 and the short -7 *)
Definition gE := xmachine gold_P [word_of 9 LONG; gold_q - 7] [word_of (-7) SHORT; 22] [1; 2] 2000 2000 3000.
Example C61_run : map (fun f => readElt 1 4000 (f lay1 777 1%nat gopt gM)) [f_eq; f_neq; f_lt; f_gt; f_leq; f_geq] = map (fun z => Some (z, SHORT, [2], 80008, 77)) [0; 1; 1; 0; 1; 0] /\
  map (fun f => readElt 1 2000 (f lay1 777 1%nat gopt gE)) [f_eq; f_neq; f_lt; f_gt; f_leq; f_geq] = map (fun z => Some (z, SHORT, [gold_q - 7], 80008, 77)) [1; 0; 0; 0; 1; 1].
Proof. vm_compute. split; reflexivity. Qed.

(** ** C62 *)
(** They use no stack at all (D = 0): nothing but the element at rdi is written. *)
Theorem C62_x86_land : forall q P, 2 ^ 32 < q -> build q = Some P -> let n := p_n64 P in
  forall lay ra m a b, 0 <= ra < B -> xready P lay 0 m -> xdest P lay 0 m (regs m RDI) -> xelt q n m (regs m RSI) a -> xelt q n m (regs m RDX) b ->
  exists m', f_land lay ra n m = Some m' /\ xyields q n 0 (regs m RDI) (Z.b2z (negb (a =? 0) && negb (b =? 0))) m m'.
Proof. intros q P H1 H2 n lay ra m a b Hra Rdy Dst A1 A2. exact (F_land q P (build_ok q P ltac:(lia) H2) lay ra Hra m H1 a b A1 A2 Rdy Dst). Qed.
Print Assumptions C62_x86_land.

Theorem C62_x86_lor : forall q P, 2 ^ 32 < q -> build q = Some P -> let n := p_n64 P in
  forall lay ra m a b, 0 <= ra < B -> xready P lay 0 m -> xdest P lay 0 m (regs m RDI) -> xelt q n m (regs m RSI) a -> xelt q n m (regs m RDX) b ->
  exists m', f_lor lay ra n m = Some m' /\ xyields q n 0 (regs m RDI) (Z.b2z (negb (a =? 0) || negb (b =? 0))) m m'.
Proof. intros q P H1 H2 n lay ra m a b Hra Rdy Dst A1 A2. exact (F_lor q P (build_ok q P ltac:(lia) H2) lay ra Hra m H1 a b A1 A2 Rdy Dst). Qed.
Print Assumptions C62_x86_lor.

Theorem C62_x86_lnot : forall q P, 2 ^ 32 < q -> build q = Some P -> let n := p_n64 P in
  forall lay ra m a, 0 <= ra < B -> xready P lay 0 m -> xdest P lay 0 m (regs m RDI) -> xelt q n m (regs m RSI) a ->
  exists m', f_lnot lay ra n m = Some m' /\ xyields q n 0 (regs m RDI) (Z.b2z (a =? 0)) m m'.
Proof. intros q P H1 H2 n lay ra m a Hra Rdy Dst A1. exact (F_lnot q P (build_ok q P ltac:(lia) H2) lay ra Hra m H1 a A1 Rdy Dst). Qed.
Print Assumptions C62_x86_lnot.

(** isTrue takes its operand in rdi and answers in rax; it writes no memory. *)
Theorem C62_x86_isTrue : forall q P, 2 ^ 32 < q -> build q = Some P -> let n := p_n64 P in
  forall lay ra m a, words m -> xelt q n m (regs m RDI) a ->
  exists m', f_isTrue lay ra n m = Some m' /\ regs m' RAX = Z.b2z (negb (a =? 0)) /\ xframe 0 0 0 m m'.
Proof. intros q P H1 H2 n lay ra m a W A. exact (F_isTrue q P (build_ok q P ltac:(lia) H2) lay ra m H1 a W A). Qed.
Print Assumptions C62_x86_isTrue.

(** Non-vacuity: the machine of [C61_hyp]. *)
Example C62_hyp : xready bn_P lay1 0 xM /\ xdest bn_P lay1 0 xM (regs xM RDI) /\ xelt bn_r 4 (setr xM RDI (regs xM RDX)) (regs (setr xM RDI (regs xM RDX)) RDI) (bn_r / 3) /\ words (setr xM RDI (regs xM RDX)).
Proof.
  assert (R : xready bn_P lay1 0 xM) by (apply xready_of; vm_compute; reflexivity). split; [exact R|]. split; [apply xdest_of; vm_compute; reflexivity|]. split.
  - assert (B : xarg bn_r 4 (D2 4 true) xM (regs xM RDI) (regs xM RDX) (bn_r / 3)) by (apply xarg_of with (s := 5) (t := LONGMONTGOMERY) (l := to_limbs 4 (bn_r / 3 * Rad 4 mod bn_r)); vm_compute; reflexivity). destruct B as ((s & t & l & F & V) & _). exists s, t, l. split; [exact F|exact V].
  - destruct (xr_words _ _ _ _ R) as [W1 W2]. split; [|exact W2]. intros r. cbn [setr regs]. unfold rupd. destruct (reg_eqb r RDI); apply W1.
Qed.
(** zero as a short, as a short with stale Montgomery limbs, and as a long with a stale short *)
Definition gL (u v : list Z) := xmachine gold_P u v [1; 2] 4000 2000 3000.
Definition zs := [word_of 0 SHORT; 11].
Definition zl := [word_of 9 LONG; 0].
Definition ol := [word_of 0 LONG; 5].
Example C62_run : map (fun m => readElt 1 4000 (f_land lay1 777 1%nat m)) [gM; gL zs ol; gL ol ol; gL ol zl] = map (fun z => Some (z, SHORT, [2], 80008, 77)) [1; 0; 1; 0] /\
  map (fun m => readElt 1 4000 (f_lor lay1 777 1%nat m)) [gM; gL zs ol; gL zs zl; gL ol zl] = map (fun z => Some (z, SHORT, [2], 80008, 77)) [1; 1; 0; 1] /\
  map (fun m => readElt 1 4000 (f_lnot lay1 777 1%nat m)) [gM; gL zs ol; gL zl zl; gL ol zl] = map (fun z => Some (z, SHORT, [2], 80008, 77)) [0; 1; 1; 0] /\
  map (fun m => option_map (fun m => regs m RAX) (f_isTrue lay1 777 1%nat (setr m RDI (regs m RSI)))) [gM; gL zs ol; gL zl zl; gL ol zl] = map Some [1; 0; 0; 1].
Proof. vm_compute. repeat split; reflexivity. Qed.
