(** Properties C51, C52, C54, C55: the x86-64 routines. *)
From Coq Require Import ZArith List Bool Arith Lia.
From Verif Require Import Limbs LimbsFacts Gen GenFacts Raw Spec Instances X86 X86Gen X86Sim X86Call X86Routines X86Raw X86RawFacts X86RawFacts2 X86RawFacts3 X86Final X86Inst.
Import ListNotations.
Open Scope Z_scope.

(** ** C51 *)
(** The generator succeeds and the routine it emits, called with any contents of
    registers, flags and memory, returns and stores at rdi the limbs which the
    portable rawMMul computes.  It changes nothing else but rax, rcx, rdx, r8-r11,
    the flags and its part of the stack.  The operands may overlap the destination
    in any way. *)
Theorem C51_x86_rawMMul : forall q P, 1 < q -> build q = Some P ->
  let n := p_n64 P in let opt := p_opt P in
  forall lay m a b mm, loaded P lay m -> target n opt m (regs m RDI) ->
  limbs_ok n a -> operand n opt m (regs m RSI) a ->
  limbs_ok n b -> operand n opt m (regs m RDX) b -> eval b < q ->
  mm (U 1) = a -> mm (U 2) = b ->
  exists code m', asm_mul n opt = Some code /\ call lay code m = Some m' /\
    returned n opt (regs m RDI) (rawMMul P (U 0) (U 1) (U 2) mm (U 0)) m m'.
Proof. intros q P H1 H2 n opt lay m a b mm L T Ha Pa Hb Pb Hbq Ea Eb. exact (mul_agree q P (build_ok q P H1 H2) lay m L T a b Ha Pa mm Ea Eb Hb Pb Hbq). Qed.
Print Assumptions C51_x86_rawMMul.

(** Non-vacuity: a machine with a 254-bit modulus, and a run on the 64-bit one. *)
Definition bn_a := to_limbs 4 (bn_r - 5).
Definition bn_b := to_limbs 4 (bn_r / 3).
Example C51_hyp : let m := machine bn_P bn_a bn_b 3000 999 in
  loaded bn_P lay0 m /\ target 4 true m (regs m RDI) /\ operand 4 true m (regs m RSI) bn_a /\ operand 4 true m (regs m RDX) bn_b /\ limbs_ok 4 bn_a /\ limbs_ok 4 bn_b /\ eval bn_b < bn_r.
Proof.
  assert (Q : limbs_ok 4 (p_q bn_P)) by (apply limbs_okb_ok; vm_compute; reflexivity).
  assert (A : limbs_ok 4 bn_a) by apply to_limbs_ok. assert (Bk : limbs_ok 4 bn_b) by apply to_limbs_ok.
  assert (N : 0 <= p_np bn_P < B) by (split; [discriminate|reflexivity]). assert (R : 0 <= 3000 < B) by (split; [discriminate|reflexivity]). assert (J : 0 <= 999 < B) by (split; [discriminate|reflexivity]). assert (N9 : (p_n64 bn_P <= 9)%nat) by (cbn; lia).
  split; [apply m_loaded; assumption|]. split; [apply (m_target bn_P); assumption|]. split; [apply (m_a bn_P); assumption|]. split; [apply (m_b bn_P); assumption|]. split; [exact A|]. split; [exact Bk|]. vm_compute. reflexivity.
Qed.
Example C51_run : match asm_mul 1 false with Some code => result 1 (call lay0 code (machine gold_P [gold_q - 5] [2 ^ 63 + 1] 3000 999)) | None => [] end
  = rawMMul gold_P (U 0) (U 1) (U 2) (fun p => match p with U 1 => [gold_q - 5] | _ => [2 ^ 63 + 1] end) (U 0).
Proof. vm_compute. reflexivity. Qed.

(** ** C54 *)
Theorem C54_x86_rawMSquare : forall q P, 1 < q -> build q = Some P ->
  let n := p_n64 P in let opt := p_opt P in
  forall lay m a mm, loaded P lay m -> target n opt m (regs m RDI) ->
  limbs_ok n a -> operand n opt m (regs m RSI) a -> eval a < q -> mm (U 1) = a ->
  exists code m', asm_square n opt = Some code /\ call lay code m = Some m' /\
    returned n opt (regs m RDI) (rawMSquare P (U 0) (U 1) mm (U 0)) m m'.
Proof. intros q P H1 H2 n opt lay m a mm L T Ha Pa Haq Ea. exact (square_agree q P (build_ok q P H1 H2) lay m L T a Ha Pa mm Ea Haq). Qed.
Print Assumptions C54_x86_rawMSquare.

(** rawMMul1 and rawFromMontgomery agree with the portable ones except for the
    sizes at which the register allocator leaves a stale copy of a spilled word. *)
Theorem C54_x86_rawMMul1_partial : forall q P, 1 < q -> build q = Some P ->
  let n := p_n64 P in let opt := p_opt P in
  ~ (n = 7%nat /\ opt = true) -> ~ (n = 6%nat /\ opt = false) ->
  forall lay m a mm, loaded P lay m -> target n opt m (regs m RDI) ->
  limbs_ok n a -> operand n opt m (regs m RSI) a -> eval a < q -> mm (U 1) = a ->
  exists code m', asm_mul1 n opt = Some code /\ call lay code m = Some m' /\
    returned n opt (regs m RDI) (rawMMul1 P (U 0) (U 1) (regs m RDX) mm (U 0)) m m'.
Proof.
  intros q P H1 H2 n opt N1 N2 lay m a mm L T Ha Pa Haq Ea.
  assert (N : neededFor n opt <> 12%nat) by (unfold neededFor; destruct opt; intros E; [apply N1|apply N2]; (split; [lia|reflexivity])).
  exact (mul1_agree q P (build_ok q P H1 H2) lay m L T a Ha Pa mm Ea N Haq).
Qed.
Print Assumptions C54_x86_rawMMul1_partial.
Theorem C54_x86_rawFromMontgomery_partial : forall q P, 1 < q -> build q = Some P ->
  let n := p_n64 P in let opt := p_opt P in
  n <> 7%nat -> ~ (n = 6%nat /\ opt = false) ->
  forall lay m a mm, loaded P lay m -> target n opt m (regs m RDI) ->
  limbs_ok n a -> operand n opt m (regs m RSI) a -> mm (U 1) = a ->
  exists code m', asm_from n opt = Some code /\ call lay code m = Some m' /\
    returned n opt (regs m RDI) (rawFromMontgomery P (U 0) (U 1) mm (U 0)) m m'.
Proof.
  intros q P H1 H2 n opt N1 N2 lay m a mm L T Ha Pa Ea.
  assert (N : neededFor n opt <> 12%nat) by (unfold neededFor; destruct opt; intros E; [apply N1; lia|apply N2; (split; [lia|reflexivity])]).
  exact (from_agree q P (build_ok q P H1 H2) lay m L T a Ha Pa mm Ea N N1).
Qed.
Print Assumptions C54_x86_rawFromMontgomery_partial.
Example C54_shapes : exists P, build (2 ^ 384 - 317) = Some P /\ p_n64 P = 6%nat /\ p_opt P = false.
Proof. eexists. split; [vm_compute; reflexivity|split; reflexivity]. Qed.

(** *** the excluded sizes *)
Definition q446 : Z := 2 ^ 446 - 1.
Definition q384 : Z := 2 ^ 384 - 1.
Definition P446 : zq := Eval vm_compute in force (build q446).
Definition P384 : zq := Eval vm_compute in force (build q384).
Lemma b446 : build q446 = Some P446. Proof. vm_compute. reflexivity. Qed.
Lemma b384 : build q384 = Some P384. Proof. vm_compute. reflexivity. Qed.
Ltac lb := apply limbs_okb_ok; vm_compute; reflexivity.
Ltac rg := split; [discriminate|reflexivity].
Ltac witness P q a rdx junk :=
  let m := constr:(machine P a a rdx junk) in
  exists q, P, lay0, m, a, (fun _ : Raw.ptr => a);
  assert (Qk : limbs_ok (p_n64 P) (p_q P)) by lb; assert (A : limbs_ok (p_n64 P) a) by lb;
  assert (N : 0 <= p_np P < B) by rg; assert (R : 0 <= rdx < B) by rg; assert (J : 0 <= junk < B) by rg; assert (N9 : (p_n64 P <= 9)%nat) by (cbn; lia);
  split; [reflexivity|]; split; [(exact b446 || exact b384)|]; split; [apply m_loaded; assumption|]; split; [apply (m_target P); assumption|]; split; [exact A|]; split; [apply (m_a P); assumption|]; split; [vm_compute; reflexivity|]; split; [reflexivity|].
Lemma returned_result n opt l m m' : length l = n -> regs m RDI = 4000 -> returned n opt (regs m RDI) l m m' -> result n (Some m') = l.
Proof.
  intros Ll R (E & _). rewrite R in E. unfold result. apply nth_ext with 0 0; [rewrite map_length, seq_length; symmetry; exact Ll|]. intros j Hj. rewrite map_length, seq_length in Hj.
  rewrite (nth_indep _ 0 ((fun j => mem m' (4000 + 8 * Z.of_nat j)) 0%nat)) by (rewrite map_length, seq_length; exact Hj).
  rewrite (map_nth (fun j => mem m' (4000 + 8 * Z.of_nat j))), seq_nth by exact Hj. apply E. rewrite Ll. exact Hj.
Qed.
Lemma wrong_result (o : option (list instr)) lay n opt l m : length l = n -> regs m RDI = 4000 ->
  match o with Some code => result n (call lay code m) | None => [] end <> l ->
  ~ exists code m', o = Some code /\ call lay code m = Some m' /\ returned n opt (regs m RDI) l m m'.
Proof. intros Ll R N (code & m' & -> & E & H). apply N. rewrite E. exact (returned_result n opt l m m' Ll R H). Qed.
(** seven words: rawFromMontgomery of 0 depends on what is on the stack *)
Theorem C54_x86_rawFromMontgomery_refuted : exists q P lay m a mm,
  let n := p_n64 P in let opt := p_opt P in
  1 < q /\ build q = Some P /\ loaded P lay m /\ target n opt m (regs m RDI) /\ limbs_ok n a /\ operand n opt m (regs m RSI) a /\ eval a < q /\ mm (U 1) = a /\
  ~ exists code m', asm_from n opt = Some code /\ call lay code m = Some m' /\ returned n opt (regs m RDI) (rawFromMontgomery P (U 0) (U 1) mm (U 0)) m m'.
Proof.
  witness P446 q446 [0;0;0;0;0;0;0] 0 999.
  apply wrong_result; [vm_compute; reflexivity|reflexivity|]. vm_compute. discriminate.
Qed.
Print Assumptions C54_x86_rawFromMontgomery_refuted.
(** seven words, optimised shape: rawMMul1 by 2^64 - 1 *)
Theorem C54_x86_rawMMul1_opt_refuted : exists q P lay m a mm,
  let n := p_n64 P in let opt := p_opt P in
  1 < q /\ build q = Some P /\ loaded P lay m /\ target n opt m (regs m RDI) /\ limbs_ok n a /\ operand n opt m (regs m RSI) a /\ eval a < q /\ mm (U 1) = a /\
  ~ exists code m', asm_mul1 n opt = Some code /\ call lay code m = Some m' /\ returned n opt (regs m RDI) (rawMMul1 P (U 0) (U 1) (regs m RDX) mm (U 0)) m m'.
Proof.
  witness P446 q446 [1;0;0;0;0;0;0] (2 ^ 64 - 1) 999.
  apply wrong_result; [vm_compute; reflexivity|reflexivity|]. vm_compute. discriminate.
Qed.
Print Assumptions C54_x86_rawMMul1_opt_refuted.
(** six words, other shape: rawMMul1 of q - 1 by 2^64 - 1 *)
Definition q384m1 := Eval vm_compute in to_limbs 6 (q384 - 1).
Theorem C54_x86_rawMMul1_refuted : exists q P lay m a mm,
  let n := p_n64 P in let opt := p_opt P in
  1 < q /\ build q = Some P /\ loaded P lay m /\ target n opt m (regs m RDI) /\ limbs_ok n a /\ operand n opt m (regs m RSI) a /\ eval a < q /\ mm (U 1) = a /\ opt = false /\
  ~ exists code m', asm_mul1 n opt = Some code /\ call lay code m = Some m' /\ returned n opt (regs m RDI) (rawMMul1 P (U 0) (U 1) (regs m RDX) mm (U 0)) m m'.
Proof.
  witness P384 q384 q384m1 (2 ^ 64 - 1) 999. split; [reflexivity|].
  apply wrong_result; [vm_compute; reflexivity|reflexivity|]. vm_compute. discriminate.
Qed.
Print Assumptions C54_x86_rawMMul1_refuted.

(** ** C52 *)
(** x86-64 rawSwap moves the second operand to the first, but fills the second with
    the caller's rbx, for every contents of registers and memory. *)
Theorem C52_x86_rawSwap_behaviour : forall lay n m pd pa, words m ->
  regs m RDI = pd -> X86RawFacts.ptr pd n -> regs m RSI = pa -> X86RawFacts.ptr pa n -> apart n pd pa ->
  (forall j, (j < n)%nat -> regs m RSP <> pd + 8 * Z.of_nat j /\ regs m RSP <> pa + 8 * Z.of_nat j) ->
  exists m', call lay (asm_rawSwap n) m = Some m' /\
  (forall j, (j < n)%nat -> mem m' (pd + 8 * Z.of_nat j) = mem m (pa + 8 * Z.of_nat j)) /\
  (forall j, (j < n)%nat -> mem m' (pa + 8 * Z.of_nat j) = regs m RBX) /\
  (forall x, (forall j, (j < n)%nat -> x <> pd + 8 * Z.of_nat j /\ x <> pa + 8 * Z.of_nat j) -> mem m' x = mem m x) /\
  (forall r, r <> RAX -> r <> RCX -> r <> RSP -> regs m' r = regs m r) /\ regs m' RSP = (regs m RSP + 8) mod B.
Proof. intros lay n m pd pa W E1 P1 E2 P2 A R. exact (rawSwap_call lay n m pd pa E1 P1 E2 P2 A R). Qed.
Print Assumptions C52_x86_rawSwap_behaviour.
(** so it swaps exactly when every word of the first operand equals rbx *)
Theorem C52_x86_rawSwap_iff : forall lay n m m', words m ->
  let pd := regs m RDI in let pa := regs m RSI in
  X86RawFacts.ptr pd n -> X86RawFacts.ptr pa n -> apart n pd pa ->
  (forall j, (j < n)%nat -> regs m RSP <> pd + 8 * Z.of_nat j /\ regs m RSP <> pa + 8 * Z.of_nat j) ->
  call lay (asm_rawSwap n) m = Some m' ->
  (forall j, (j < n)%nat -> mem m' (pd + 8 * Z.of_nat j) = mem m (pa + 8 * Z.of_nat j) /\ mem m' (pa + 8 * Z.of_nat j) = mem m (pd + 8 * Z.of_nat j)) <->
  (forall j, (j < n)%nat -> mem m (pd + 8 * Z.of_nat j) = regs m RBX).
Proof.
  intros lay n m m' W pd pa P1 P2 A R C. destruct (rawSwap_call lay n m pd pa eq_refl P1 eq_refl P2 A R) as (m2 & C2 & D1 & D2 & _). rewrite C in C2. injection C2 as <-. split.
  - intros H j Hj. destruct (H j Hj) as [_ H2]. rewrite <- H2. apply D2, Hj.
  - intros H j Hj. split; [apply D1, Hj|]. rewrite D2, H by exact Hj. reflexivity.
Qed.
Print Assumptions C52_x86_rawSwap_iff.
Theorem C52_x86_rawSwap_refuted : exists lay n m m', words m /\ X86RawFacts.ptr (regs m RDI) n /\ X86RawFacts.ptr (regs m RSI) n /\ apart n (regs m RDI) (regs m RSI) /\
  call lay (asm_rawSwap n) m = Some m' /\ mem m' (regs m RSI) <> mem m (regs m RDI).
Proof.
  exists lay0, 1%nat, (machine gold_P [5] [5] 3000 999). eexists. split; [apply m_words; try lb; rg|]. split; [split; [discriminate|split; [reflexivity|discriminate]]|]. split; [split; [discriminate|split; [reflexivity|discriminate]]|]. split; [right; discriminate|]. split; [reflexivity|]. discriminate.
Qed.
Print Assumptions C52_x86_rawSwap_refuted.

(** ** C55 *)
(** The routines of add.asm.ejs, sub.asm.ejs, neg.asm.ejs and copy.asm.ejs.  The
    operands are the destination or disjoint from it; the destination does not
    overlap the constant q nor the return address. *)
Definition noret (n : nat) (m : mach) (p : Z) : Prop := forall j, (j < n)%nat -> regs m RSP <> p + 8 * Z.of_nat j.
Theorem C55_x86_rawAdd : forall q P, 1 < q -> build q = Some P -> let n := p_n64 P in
  forall lay m a b mm, words m -> X86RawFacts.ptr (regs m RDI) n -> noret n m (regs m RDI) ->
  limbs_ok n a -> limbs_ok n b -> mm (U 1) = a -> mm (U 2) = b ->
  at_addr m (regs m RSI) a -> same_or_apart n (regs m RSI) (regs m RDI) ->
  at_addr m (lay Sq) (p_q P) -> apart n (lay Sq) (regs m RDI) -> eval a < q ->
  at_addr m (regs m RDX) b -> same_or_apart n (regs m RDX) (regs m RDI) -> eval b < q ->
  exists m', call lay (asm_rawAdd n) m = Some m' /\ stored [RAX] (regs m RDI) (rawAdd P (U 0) (U 1) (U 2) mm (U 0)) m m'.
Proof. intros q P H1 H2 n lay m a b mm W Pd R. exact (rawAdd_agree q P (build_ok q P H1 H2) lay m W Pd R a b mm). Qed.
Print Assumptions C55_x86_rawAdd.
Theorem C55_x86_rawSub : forall q P, 1 < q -> build q = Some P -> let n := p_n64 P in
  forall lay m a b mm, words m -> X86RawFacts.ptr (regs m RDI) n -> noret n m (regs m RDI) ->
  limbs_ok n a -> limbs_ok n b -> mm (U 1) = a -> mm (U 2) = b ->
  at_addr m (regs m RSI) a -> same_or_apart n (regs m RSI) (regs m RDI) ->
  at_addr m (lay Sq) (p_q P) -> apart n (lay Sq) (regs m RDI) -> eval a < q ->
  at_addr m (regs m RDX) b -> same_or_apart n (regs m RDX) (regs m RDI) -> eval b < q ->
  exists m', call lay (asm_rawSub n) m = Some m' /\ stored [RAX] (regs m RDI) (rawSub P (U 0) (U 1) (U 2) mm (U 0)) m m'.
Proof. intros q P H1 H2 n lay m a b mm W Pd R. exact (rawSub_agree q P (build_ok q P H1 H2) lay m W Pd R a b mm). Qed.
Print Assumptions C55_x86_rawSub.
Theorem C55_x86_rawNeg : forall q P, 1 < q -> build q = Some P -> let n := p_n64 P in
  forall lay m a mm, words m -> X86RawFacts.ptr (regs m RDI) n -> noret n m (regs m RDI) ->
  limbs_ok n a -> mm (U 1) = a ->
  at_addr m (regs m RSI) a -> same_or_apart n (regs m RSI) (regs m RDI) ->
  at_addr m (lay Sq) (p_q P) -> apart n (lay Sq) (regs m RDI) -> eval a < q ->
  exists m', call lay (asm_rawNeg n) m = Some m' /\ stored [RAX] (regs m RDI) (rawNeg P (U 0) (U 1) mm (U 0)) m m'.
Proof. intros q P H1 H2 n lay m a mm W Pd R. exact (rawNeg_agree q P (build_ok q P H1 H2) lay m W Pd R a mm). Qed.
Print Assumptions C55_x86_rawNeg.
Theorem C55_x86_rawCopy : forall q P, 1 < q -> build q = Some P -> let n := p_n64 P in
  forall lay m a mm, words m -> X86RawFacts.ptr (regs m RDI) n -> noret n m (regs m RDI) ->
  limbs_ok n a -> mm (U 1) = a -> at_addr m (regs m RSI) a -> same_or_apart n (regs m RSI) (regs m RDI) ->
  exists m', call lay (asm_rawCopy n) m = Some m' /\ stored [RAX] (regs m RDI) (rawCopy (U 0) (U 1) mm (U 0)) m m'.
Proof. intros q P H1 H2 n lay m a mm W Pd R. exact (rawCopy_agree q P (build_ok q P H1 H2) lay m W Pd R a mm). Qed.
Print Assumptions C55_x86_rawCopy.
Theorem C55_x86_rawZero : forall P, let n := p_n64 P in
  forall lay m mm, X86RawFacts.ptr (regs m RDI) n -> noret n m (regs m RDI) ->
  exists m', call lay (asm_rawZero n) m = Some m' /\ stored [RAX] (regs m RDI) (rawZero P (U 0) mm (U 0)) m m'.
Proof. intros P n lay m mm Pd R. exact (rawZero_agree P lay m Pd R mm). Qed.
Print Assumptions C55_x86_rawZero.
Theorem C55_x86_rawIsEq : forall lay n m a b mm, words m -> length a = n -> length b = n ->
  at_addr m (regs m RDI) a -> mm (U 1) = a -> at_addr m (regs m RSI) b -> mm (U 2) = b ->
  exists m', call lay (asm_rawIsEq n) m = Some m' /\ answered m (rawIsEq (U 1) (U 2) mm) m'.
Proof. intros lay n m a b mm W Ha Hb Pa Ea Pb Eb. exact (rawIsEq_agree lay n m W a b Ha Hb Pa mm Ea Pb Eb). Qed.
Print Assumptions C55_x86_rawIsEq.
Theorem C55_x86_rawIsZero : forall lay n m a mm, words m -> length a = n -> at_addr m (regs m RDI) a -> mm (U 1) = a ->
  exists m', call lay (asm_rawIsZero n) m = Some m' /\ answered m (rawIsZero (U 1) mm) m'.
Proof. intros lay n m a mm W Ha Pa Ea. exact (rawIsZero_agree lay n m W a Ha Pa mm Ea). Qed.
Print Assumptions C55_x86_rawIsZero.
(** Non-vacuity: the machine of C51_hyp, and runs next to q. *)
Example C55_hyp : let m := machine bn_P bn_a bn_b 3000 999 in
  words m /\ X86RawFacts.ptr (regs m RDI) 4 /\ noret 4 m (regs m RDI) /\ at_addr m (regs m RSI) bn_a /\ same_or_apart 4 (regs m RSI) (regs m RDI) /\
  at_addr m (lay0 Sq) (p_q bn_P) /\ apart 4 (lay0 Sq) (regs m RDI) /\ eval bn_a < bn_r /\ at_addr m (regs m RDX) bn_b.
Proof.
  destruct C51_hyp as (L & _ & A & Bk & _). split; [apply L|]. split; [split; [discriminate|split; [reflexivity|discriminate]]|]. split; [intros j Hj; cbn [machine regs]; lia|]. split; [apply A|]. split; [right; left; discriminate|]. split; [apply (ld_q _ _ _ L)|]. split; [left; discriminate|]. split; [vm_compute; reflexivity|apply Bk].
Qed.
Example C55_run :
  eval (result 4 (call lay0 (asm_rawAdd 4) (machine bn_P bn_a bn_b 3000 999))) = bn_r / 3 - 5 /\
  eval (result 4 (call lay0 (asm_rawSub 4) (machine bn_P bn_b bn_a 3000 999))) = bn_r / 3 + 5 /\
  eval (result 4 (call lay0 (asm_rawNeg 4) (machine bn_P bn_a bn_b 3000 999))) = 5.
Proof. vm_compute. split; [reflexivity|split; reflexivity]. Qed.
