(** The four generated Montgomery routines, called on any machine, store the limbs
    the portable ones compute. *)
From Coq Require Import ZArith List Bool Arith Lia.
From Verif Require Import Limbs LimbsFacts Gen GenFacts Raw Spec MontFacts RawFacts X86 X86Gen X86Sim X86Sim2 X86Mont X86Mont2 X86Call.
Import ListNotations.
Open Scope Z_scope.

(** an array of words the routine reads, away from its stack *)
Definition operand (n : nat) (opt : bool) (m : mach) (p : Z) (l : list Z) : Prop := at_addr m p l /\ off_stack n opt m p (length l).
Definition target (n : nat) (opt : bool) (m : mach) (p : Z) : Prop := 0 <= p /\ p mod 8 = 0 /\ p + 8 * Z.of_nat n <= B /\ off_stack n opt m p n.
(** registers and words are 64-bit, there is stack, and the data section holds the
    constants of the generated file (fr.asm.ejs lines 55-60) *)
Record loaded (P : zq) (lay : sym -> Z) (m : mach) : Prop := {
  ld_words : words m;
  ld_stack : stack_ok (p_n64 P) (p_opt P) m;
  ld_q : operand (p_n64 P) (p_opt P) m (lay Sq) (p_q P);
  ld_np : operand (p_n64 P) (p_opt P) m (lay Snp) [p_np P] }.

Section Routines.
Variable q : Z.
Variable P : zq.
Hypothesis OK : zq_ok q P.
Notation n := (p_n64 P).
Notation opt := (p_opt P).
Lemma Hn : (1 <= n)%nat. Proof. apply (zk_n _ _ OK). Qed.
Lemma ql_ok : limbs_ok n (p_q P).
Proof. rewrite (zk_q _ _ OK). apply to_limbs_ok. Qed.
Lemma ql_eval : eval (p_q P) = q.
Proof. rewrite (zk_q _ _ OK), eval_to_limbs. apply Z.mod_small. pose proof (zk_gt1 _ _ OK). pose proof (zk_hi _ _ OK). lia. Qed.
Lemma np_range : 0 <= p_np P < B.
Proof. pose proof (zk_np_range _ _ OK). lia. Qed.

Variable lay : sym -> Z.
Variable m : mach.
Hypothesis L : loaded P lay m.
Lemma arr_of c p l : operand n opt m p l -> (forall x, clr n opt m x = true -> mem c x = mem m x) -> arr (clr n opt m) p l c.
Proof.
  intros ((A1 & A2 & A3 & A4) & O) H. split; [exact A1|]. split; [exact A2|]. split; [exact A3|]. intros j Hj.
  assert (C : clr n opt m (p + 8 * Z.of_nat j) = true) by (apply clr_spec; destruct O; lia). split; [exact C|]. rewrite H by exact C. apply A4, Hj.
Qed.
Lemma dest_of p : target n opt m p -> forall j, (j < n)%nat -> clr n opt m (p + 8 * Z.of_nat j) = true.
Proof. intros (_ & _ & _ & O) j Hj. apply clr_spec. destruct O; lia. Qed.
Hypothesis Ht : target n opt m (regs m RDI).

Lemma callee_no (U : nat -> bool -> nat -> list cmd) : (forall n opt r i, callee_saved r -> Forall (nocmd r) (U n opt i)) -> forall r i, callee_saved r -> Forall (nocmd r) (U n opt i).
Proof. auto. Qed.
Variable a b : list Z.
Hypothesis Ha : limbs_ok n a.
Hypothesis Hpa : operand n opt m (regs m RSI) a.

Lemma mul_call : limbs_ok n b -> operand n opt m (regs m RDX) b -> eval b < q ->
  exists code, asm_mul n opt = Some code /\ exists m' l, call lay code m = Some m' /\ limbs_ok n l /\ eval l < q /\ (eval l * B ^ Z.of_nat n) mod q = (eval a * eval b) mod q /\ returned n opt (regs m RDI) l m m'.
Proof.
  intros Hb Hpb Hbq. destruct Ht as (T1 & T2 & T3 & T4).
  apply (routine_call lay n opt Hn (mulUpper n opt)); [intros; apply mul_nocmd; assumption| |apply L|apply L|apply dest_of, Ht|].
  - intros F ok H1 H2 H3 H4. eapply sim_mul; eauto; apply Hn.
  - intros c v Hv Hw Hr Hc. assert (Er : forall r, r <> RSP -> regs c r = regs m r) by exact Hr.
    eapply vm_mul with (a := a) (b := b) (pa := regs m RSI) (pb := regs m RDX) (np := p_np P) (ql := p_q P);
      [apply Hn|apply ql_ok|apply ql_eval|apply (zk_gt1 _ _ OK)|apply (zk_hi _ _ OK)|apply (zk_opt _ _ OK)|apply np_range|apply (zk_np _ _ OK)|exact Hv|apply arr_of; [apply L|exact Hc]|apply arr_of; [apply L|exact Hc]|
       apply Hr; discriminate|exact T1|exact T2|exact T3|apply dest_of, Ht|exact Ha|exact Hb|exact Hbq|apply Hr; discriminate|apply Hr; discriminate|apply arr_of; assumption|apply arr_of; assumption].
Qed.
Lemma square_call : eval a < q ->
  exists code, asm_square n opt = Some code /\ exists m' l, call lay code m = Some m' /\ limbs_ok n l /\ eval l < q /\ (eval l * B ^ Z.of_nat n) mod q = (eval a * eval a) mod q /\ returned n opt (regs m RDI) l m m'.
Proof.
  intros Haq. destruct Ht as (T1 & T2 & T3 & T4).
  apply (routine_call lay n opt Hn (squareUpper n opt)); [intros; apply square_nocmd; assumption| |apply L|apply L|apply dest_of, Ht|].
  - intros F ok H1 H2 H3 H4. eapply sim_square; eauto; apply Hn.
  - intros c v Hv Hw Hr Hc.
    eapply vm_square with (a := a) (pa := regs m RSI) (np := p_np P) (ql := p_q P);
      [apply Hn|apply ql_ok|apply ql_eval|apply (zk_gt1 _ _ OK)|apply (zk_hi _ _ OK)|apply (zk_opt _ _ OK)|apply np_range|apply (zk_np _ _ OK)|exact Hv|apply arr_of; [apply L|exact Hc]|apply arr_of; [apply L|exact Hc]|
       apply Hr; discriminate|exact T1|exact T2|exact T3|apply dest_of, Ht|exact Ha|apply Hr; discriminate|apply arr_of; assumption|exact Haq].
Qed.
Lemma mul1_call : neededFor n opt <> 12%nat -> eval a < q ->
  exists code, asm_mul1 n opt = Some code /\ exists m' l, call lay code m = Some m' /\ limbs_ok n l /\ eval l < q /\ (eval l * B ^ Z.of_nat n) mod q = (regs m RDX * eval a) mod q /\ returned n opt (regs m RDI) l m m'.
Proof.
  intros N12 Haq. destruct Ht as (T1 & T2 & T3 & T4).
  apply (routine_call lay n opt Hn (mul1Upper n opt)); [intros; apply mul1_nocmd; assumption| |apply L|apply L|apply dest_of, Ht|].
  - intros F ok H1 H2 H3 H4. eapply sim_mul1; eauto; apply Hn.
  - intros c v Hv Hw Hr Hc.
    eapply vm_mul1 with (a := a) (pa := regs m RSI) (np := p_np P) (ql := p_q P);
      [apply Hn|apply ql_ok|apply ql_eval|apply (zk_gt1 _ _ OK)|apply (zk_hi _ _ OK)|apply (zk_opt _ _ OK)|apply np_range|apply (zk_np _ _ OK)|exact Hv|apply Hw|apply arr_of; [apply L|exact Hc]|apply arr_of; [apply L|exact Hc]|
       apply Hr; discriminate|exact T1|exact T2|exact T3|apply dest_of, Ht|exact Ha|apply Hr; discriminate|apply arr_of; assumption|apply Hr; discriminate|exact Haq].
Qed.
Lemma from_call : neededFor n opt <> 12%nat -> n <> 7%nat ->
  exists code, asm_from n opt = Some code /\ exists m' l, call lay code m = Some m' /\ limbs_ok n l /\ eval l < q /\ (eval l * B ^ Z.of_nat n) mod q = eval a mod q /\ returned n opt (regs m RDI) l m m'.
Proof.
  intros N12 N7. destruct Ht as (T1 & T2 & T3 & T4).
  apply (routine_call lay n opt Hn (fromUpper n opt)); [intros; apply from_nocmd; assumption| |apply L|apply L|apply dest_of, Ht|].
  - intros F ok H1 H2 H3 H4. eapply sim_from; eauto; apply Hn.
  - intros c v Hv Hw Hr Hc.
    eapply vm_from with (a := a) (pa := regs m RSI) (np := p_np P) (ql := p_q P);
      [apply Hn|apply ql_ok|apply ql_eval|apply (zk_gt1 _ _ OK)|apply (zk_hi _ _ OK)|apply (zk_opt _ _ OK)|apply np_range|apply (zk_np _ _ OK)|exact Hv|apply arr_of; [apply L|exact Hc]|apply arr_of; [apply L|exact Hc]|
       apply Hr; discriminate|exact T1|exact T2|exact T3|apply dest_of, Ht|exact Ha|apply Hr; discriminate|apply arr_of; assumption].
Qed.
End Routines.
