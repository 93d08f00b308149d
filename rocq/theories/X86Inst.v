(** Concrete machines on which the x86-64 theorems apply or fail. *)
From Coq Require Import ZArith List Bool Arith Lia.
From Verif Require Import Limbs LimbsFacts Gen X86 X86Gen X86Sim X86Call X86Routines.
Import ListNotations.
Open Scope Z_scope.

Definition lay0 (s : sym) : Z := match s with Sq => 1000 | Snp => 1200 | _ => 0 end.
Fixpoint put (m : Z -> Z) (a : Z) (l : list Z) : Z -> Z := match l with [] => m | x :: l => put (mupd m a x) (a + 8) l end.
(** destination at 4000, operands at 2000 and 3000, stack pointer 80000; [rdx] is
    the third argument, [junk] the contents of the rest of the memory *)
Definition machine (P : zq) (a b : list Z) (rdx junk : Z) : mach :=
  {| regs := fun r => match r with RSP => 80000 | RDI => 4000 | RSI => 2000 | RDX => rdx | RBX => 77 | _ => 12345 end;
     fl := {| cf := true; ovf := true; zf := false |};
     mem := put (put (put (mupd (fun _ => junk) 1200 (p_np P)) 1000 (p_q P)) 2000 a) 3000 b |}.
Lemma mupd_range m a x : (forall y, 0 <= m y < B) -> 0 <= x < B -> forall y, 0 <= mupd m a x y < B.
Proof. intros H Hx y. unfold mupd. destruct (y =? a); [exact Hx|apply H]. Qed.
Lemma put_range l : forall m a, (forall y, 0 <= m y < B) -> Forall (fun x => 0 <= x < B) l -> forall y, 0 <= put m a l y < B.
Proof. induction l as [|x l IH]; intros m a H Hl; [exact H|]. inversion Hl; subst. cbn [put]. apply IH; [|assumption]. apply mupd_range; assumption. Qed.
Lemma put_out l : forall m a y, y < a \/ a + 8 * Z.of_nat (length l) <= y -> put m a l y = m y.
Proof. induction l as [|x l IH]; intros m a y H; [reflexivity|]. cbn [put length] in *. rewrite IH by lia. apply mupd_neq. lia. Qed.
Lemma put_in l : forall m a j, (j < length l)%nat -> put m a l (a + 8 * Z.of_nat j) = nth j l 0.
Proof.
  induction l as [|x l IH]; intros m a j Hj; [cbn in Hj; lia|]. cbn [put]. cbn [length] in Hj. destruct j as [|j]; [rewrite put_out by lia; cbn; rewrite Z.add_0_r; apply mupd_eq|].
  replace (a + 8 * Z.of_nat (S j)) with (a + 8 + 8 * Z.of_nat j) by lia. rewrite IH by lia. reflexivity.
Qed.
Section M.
Variable P : zq.
Variables a b : list Z.
Variables rdx junk : Z.
Notation n := (p_n64 P).
Hypothesis Hq : limbs_ok n (p_q P).
Hypothesis Hnp : 0 <= p_np P < B.
Hypothesis Ha : limbs_ok n a.
Hypothesis Hb : limbs_ok n b.
Hypothesis Hrdx : 0 <= rdx < B.
Hypothesis Hjunk : 0 <= junk < B.
Hypothesis Hn : (n <= 9)%nat.
Notation m := (machine P a b rdx junk).
Lemma m_words : words m.
Proof.
  split.
  - intros r. destruct r; cbn [machine regs]; try exact Hrdx; split; (discriminate || reflexivity).
  - intros x. cbn [machine mem]. apply put_range; [|apply Hb]. apply put_range; [|apply Ha]. apply put_range; [|apply Hq]. apply mupd_range; [intros; exact Hjunk|exact Hnp].
Qed.
Lemma stack_small : stackBytes n (p_opt P) <= 800.
Proof.
  pose proof Hn as H. revert H. generalize (p_n64 P) (p_opt P). intros k o H. do 10 (destruct k as [|k]; [destruct o; apply Z.leb_le; vm_compute; reflexivity|]). lia.
Qed.
Lemma m_stack : stack_ok n (p_opt P) m.
Proof. unfold stack_ok. cbn [machine regs]. split; [reflexivity|]. pose proof stack_small. split; [lia|discriminate]. Qed.
Lemma m_off p k : p + 8 * Z.of_nat k <= 70000 -> off_stack n (p_opt P) m p k.
Proof. intros H. left. cbn [machine regs]. pose proof stack_small. lia. Qed.
Lemma len9 l : limbs_ok n l -> (length l <= 9)%nat. Proof. intros [-> _]. exact Hn. Qed.
Lemma m_operand p l : 0 <= p -> p mod 8 = 0 -> p <= 60000 -> (length l <= 9)%nat -> (forall j, (j < length l)%nat -> mem m (p + 8 * Z.of_nat j) = nth j l 0) -> operand n (p_opt P) m p l.
Proof. intros H1 H2 H3 H4 H5. split; [split; [exact H1|split; [exact H2|split; [change B with (2 ^ 64); lia|exact H5]]]|apply m_off; lia]. Qed.
Lemma m_a : operand n (p_opt P) m 2000 a.
Proof. pose proof (len9 a Ha). pose proof (len9 b Hb). apply m_operand; [lia|reflexivity|lia|lia|]. intros j Hj. cbn [machine mem]. rewrite put_out by lia. apply put_in, Hj. Qed.
Lemma m_b : operand n (p_opt P) m 3000 b.
Proof. pose proof (len9 b Hb). apply m_operand; [lia|reflexivity|lia|lia|]. intros j Hj. cbn [machine mem]. apply put_in, Hj. Qed.
Lemma m_loaded : loaded P lay0 m.
Proof.
  pose proof (len9 a Ha). pose proof (len9 b Hb). pose proof (len9 _ Hq). constructor; [exact m_words|exact m_stack| |]; cbn [lay0].
  - apply m_operand; [lia|reflexivity|lia|lia|]. intros j Hj. cbn [machine mem]. rewrite put_out by lia. rewrite put_out by lia. apply put_in, Hj.
  - apply m_operand; [lia|reflexivity|lia|cbn; lia|]. intros j Hj. cbn [length] in Hj. assert (j = 0%nat) by lia. subst j. cbn [nth]. rewrite Z.mul_0_r, Z.add_0_r. cbn [machine mem]. rewrite !put_out by lia. apply mupd_eq.
Qed.
Lemma m_target : target n (p_opt P) m 4000.
Proof. split; [lia|]. split; [reflexivity|]. split; [change B with (2 ^ 64); lia|]. apply m_off. lia. Qed.
End M.
(** the words at 4000 after a call *)
Definition result (n : nat) (o : option mach) : list Z := match o with Some m => map (fun j => mem m (4000 + 8 * Z.of_nat j)) (seq 0 n) | None => [] end.
