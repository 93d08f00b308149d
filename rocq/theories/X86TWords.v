(** Registers and memory stay 64-bit words. *)
From Coq Require Import ZArith List Bool Arith Lia.
From Verif Require Import Limbs LimbsFacts X86 X86Gen X86Sim X86Mont X86Call X86Raw.
Import ListNotations.
Open Scope Z_scope.

Definition imm_ok (o : opd) : Prop := match o with OImm v => 0 <= v < B | _ => True end.
Definition instr_ok (i : instr) : Prop := match i with I _ ops => Forall imm_ok ops | _ => True end.
Lemma words_setr m r v : words m -> 0 <= v < B -> words (setr m r v).
Proof. intros [H1 H2] Hv. split; [|exact H2]. intros x. cbn [setr regs]. unfold rupd. destruct (reg_eqb x r); [exact Hv|apply H1]. Qed.
Lemma words_setm m a v : words m -> 0 <= v < B -> words (setm m a v).
Proof. intros [H1 H2] Hv. split; [exact H1|]. intros x. cbn [setm mem]. unfold mupd. destruct (x =? a); [exact Hv|apply H2]. Qed.
Lemma words_setf m f : words m -> words (setf m f).
Proof. intros H. exact H. Qed.
Lemma rd_range lay m o x : words m -> imm_ok o -> rd lay m o = Some x -> 0 <= x < B.
Proof. intros [H1 H2] Hi H. destruct o as [r|b off|v]; cbn [rd] in H; [injection H as <-; apply H1| |injection H as <-; exact Hi]. destruct (addr lay m b off mod 8 =? 0); [injection H as <-; apply H2|discriminate]. Qed.
Lemma rds_range lay m ops l : words m -> Forall imm_ok ops -> rds lay m ops = Some l -> Forall (fun x => 0 <= x < B) l.
Proof.
  intros W. revert l. induction ops as [|o ops IH]; intros l Hi H; cbn [rds] in H; [injection H as <-; constructor|]. inversion Hi; subst.
  destruct (rd lay m o) as [x|] eqn:E; [|discriminate]. destruct (rds lay m ops) as [r|]; [|discriminate]. injection H as <-. constructor; [apply (rd_range lay m o); assumption|apply IH; [assumption|reflexivity]].
Qed.
Lemma lxor_range x y : 0 <= x < B -> 0 <= y < B -> 0 <= Z.lxor x y < B.
Proof.
  intros Hx Hy. change B with (2 ^ 64) in *. assert (0 <= Z.lxor x y) by (apply Z.lxor_nonneg; lia). split; [assumption|]. destruct (Z.eq_dec (Z.lxor x y) 0) as [->|N]; [lia|].
  apply Z.log2_lt_pow2; [lia|]. pose proof (Z.log2_lxor x y ltac:(lia) ltac:(lia)) as L.
  assert (Z.log2 x < 64) by (destruct (Z.eq_dec x 0) as [->|]; [cbn; lia|apply Z.log2_lt_pow2; lia]). assert (Z.log2 y < 64) by (destruct (Z.eq_dec y 0) as [->|]; [cbn; lia|apply Z.log2_lt_pow2; lia]). lia.
Qed.
Lemma sem_range i rdx l f vs f' : 0 <= rdx < B -> Forall (fun x => 0 <= x < B) l -> sem i rdx l f = Some (vs, f') -> Forall (fun v => match v with Some x => 0 <= x < B | None => True end) vs.
Proof.
  intros Hr Hl H. pose proof B_pos. assert (M : forall x, 0 <= x mod B < B) by (intros; apply Z.mod_pos_bound; lia).
  destruct i; cbn [sem] in H; destruct l as [|x [|y [|z [|w l]]]]; try discriminate; unfold addf, subf in H; injection H as <- <-;
    repeat match goal with H : Forall _ (_ :: _) |- _ => inversion H; clear H; subst end; repeat (apply Forall_cons || apply Forall_nil); try exact Logic.I; try apply M; try assumption.
  - split; [apply Z.div_pos; nia|apply Z.div_lt_upper_bound; nia].
  - apply lxor_range; assumption.
Qed.
Lemma wr_words lay m0 m o v : words m -> 0 <= v < B -> words (wr lay m0 m o v).
Proof. intros W Hv. destruct o; cbn [wr]; [apply words_setr; assumption|apply words_setm; assumption|exact W]. Qed.
Lemma wrs_words lay m0 m ops : forall vs, words m -> Forall (fun v => match v with Some x => 0 <= x < B | None => True end) vs -> words (wrs lay m0 m ops vs).
Proof. induction ops as [|o ops IH]; intros vs W H; [exact W|]. destruct vs as [|v vs]; [exact W|]. inversion H; subst. cbn [wrs]. destruct v as [x|]; [apply wr_words; [apply IH; assumption|assumption]|apply IH; assumption]. Qed.
Lemma exec_words lay i ops m m' : words m -> Forall imm_ok ops -> exec lay i ops m = Some m' -> words m'.
Proof.
  intros W Hi H. unfold exec in H. destruct (negb (encodable i ops)); [discriminate|]. destruct (rds lay m ops) as [l|] eqn:E; [|discriminate]. destruct (sem i (regs m RDX) l (fl m)) as [[vs f]|] eqn:E2; [|discriminate]. injection H as <-.
  apply words_setf, wrs_words; [exact W|]. apply (sem_range i (regs m RDX) l (fl m) vs f); [apply W|apply (rds_range lay m ops); assumption|exact E2].
Qed.
Lemma step_words lay i s s' : words (fst s) -> instr_ok i -> step lay i s = Some s' -> words (fst s').
Proof.
  destruct s as [m sk]. cbn [fst]. intros W Hi H. unfold step in H. assert (M : forall x, 0 <= x mod B < B) by (intros; apply Z.mod_pos_bound; pose proof B_pos; lia). destruct sk as [l|].
  - destruct i; injection H as <-; exact W.
  - destruct i; try (injection H as <-; exact W).
    + destruct (exec lay name ops m) as [m1|] eqn:E; [|discriminate]. injection H as <-. exact (exec_words _ _ _ _ _ W Hi E).
    + destruct (_ =? 0); [|discriminate]. injection H as <-. apply words_setr; [apply words_setm; [exact W|apply W]|apply M].
    + destruct (_ =? 0); [|discriminate]. injection H as <-. apply words_setr; [apply words_setr; [exact W|apply M]|apply W].
Qed.
Lemma run_words lay code : forall s s', words (fst s) -> Forall instr_ok code -> run lay code s = Some s' -> words (fst s').
Proof.
  induction code as [|i code IH]; intros s s' W Hi H; cbn [run] in H; [injection H as <-; exact W|]. inversion Hi; subst. destruct (step lay i s) as [s1|] eqn:E; [|discriminate].
  apply (IH s1); [apply (step_words lay i s); assumption|assumption|exact H].
Qed.
Lemma call_words lay code m m' : words m -> Forall instr_ok code -> call lay code m = Some m' -> words m'.
Proof.
  intros W Hi H. unfold call in H. destruct (run lay code (m, None)) as [[m1 [l|]]|] eqn:E; try discriminate. destruct (_ && _); [|discriminate]. injection H as <-. apply words_setr; [|apply Z.mod_pos_bound; pose proof B_pos; lia].
  apply (run_words lay code (m, None) (m1, None)); assumption.
Qed.
(** *** the generated code has no immediate but the size of its stack frame *)
Definition noimm (o : opd) : Prop := match o with OImm _ => False | _ => True end.
Definition ino (i : instr) : Prop := match i with I _ ops => Forall noimm ops | _ => True end.
Lemma ino_ok i : ino i -> instr_ok i.
Proof. destruct i; cbn; try auto. apply Forall_impl. intros [| |]; cbn; tauto. Qed.
Lemma regRef_no a i : noimm (regRef a i).
Proof. unfold regRef. destruct (i <? _)%nat; [exact Logic.I|]. destruct (i <? _)%nat; exact Logic.I. Qed.
Lemma store_ino a w : ino (store a w).
Proof. unfold store. cbn [ino]. constructor; [apply regRef_no|repeat constructor]. Qed.
Lemma loadWr_ino a k b a' c r : loadWr a k b = Some (a', c, r) -> Forall ino c.
Proof.
  unfold loadWr. destruct (take_ref (assign a) k) as [[w l]|]; [intros H; injection H as _ <- _; constructor|].
  destruct (match avail a with [] => _ | _ => _ end) as [[av asg] code] eqn:E. destruct av as [|r' av]; [discriminate|]. intros H. injection H as _ <- _. apply Forall_app. split.
  - destruct (avail a); [|inversion E; subst; constructor]. destruct (assign a) as [|w l]; inversion E; subst. destruct (w_mod w); [constructor; [apply store_ino|constructor]|constructor].
  - destruct b; [|constructor]. constructor; [|constructor]. cbn [ino]. constructor; [exact Logic.I|]. constructor; [apply regRef_no|constructor].
Qed.
Lemma params_ino ld : forall ms args a a' c l, params a ld ms args = Some (a', c, l) -> Forall ino c /\ Forall noimm l.
Proof.
  induction ms as [|mo ms IH]; intros args a a' c l H; cbn [params] in H; [injection H as <- <- <-; split; constructor|].
  destruct args as [|x args]; [injection H as <- <- <-; split; constructor|].
  assert (D : forall o, noimm o -> match params a ld ms args with Some (a, c, l) => Some (a, c, o :: l) | None => None end = Some (a', c, l) -> Forall ino c /\ Forall noimm l).
  { intros o Ho E. destruct (params a ld ms args) as [[[a1 c1] l1]|] eqn:E1; [|discriminate]. injection E as <- <- <-. destruct (IH _ _ _ _ _ E1). split; [assumption|constructor; assumption]. }
  destruct x as [k|r|b off]; [|apply (D (OReg r) Logic.I H)|apply (D (OMem b off) Logic.I H)].
  destruct (k <? nUsed a)%nat; [apply (D _ (regRef_no a k) H)|]. destruct (match ld with Some k' => (k =? k')%nat | None => false end); [|apply (D _ (regRef_no a k) H)].
  destruct (loadWr a k (mI mo)) as [[[a1 c1] r]|] eqn:E1; [|discriminate]. destruct (params (if mO mo then mark a1 k else a1) ld ms args) as [[[a2 c2] l2]|] eqn:E2; [|discriminate]. injection H as <- <- <-.
  destruct (IH _ _ _ _ _ E2). split; [apply Forall_app; split; [exact (loadWr_ino _ _ _ _ _ _ E1)|assumption]|constructor; [exact Logic.I|assumption]].
Qed.
Lemma flush_ino a b : Forall ino (snd (flushWr a b)).
Proof. unfold flushWr. destruct b; cbn [snd]; apply Forall_map, Forall_forall; intros w _; apply store_ino. Qed.
Lemma emit_ino : forall cs a a' c, emit a cs = Some (a', c) -> Forall ino c.
Proof.
  induction cs as [|x cs IH]; intros a a' c H; cbn [emit] in H; [injection H as <- <-; constructor|]. destruct (emit1 a x) as [[a1 l]|] eqn:E1; [|discriminate]. destruct (emit a1 cs) as [[a2 l']|] eqn:E2; [|discriminate]. injection H as <- <-.
  apply Forall_app. split; [|exact (IH _ _ _ E2)]. destruct x as [i args|c l0|b|l0]; cbn [emit1] in E1.
  - unfold op in E1. destruct (negb _); [discriminate|]. destruct (choose _ _ _ _ _ _) as [[? dl]|]; [|discriminate]. destruct (params _ _ _ _) as [[[a3 c3] l3]|] eqn:E3; [|discriminate]. injection E1 as <- <-. destruct (params_ino _ _ _ _ _ _ _ E3). apply Forall_app. split; [assumption|]. constructor; [assumption|constructor].
  - injection E1 as <- <-. constructor; [exact Logic.I|constructor].
  - injection E1 as E1. pose proof (flush_ino a b) as F. rewrite E1 in F. exact F.
  - pose proof (flush_ino a true) as F. destruct (flushWr a true) as [a3 c3]. injection E1 as <- <-. constructor; [exact Logic.I|exact F].
Qed.
Lemma routine_ok n opt up code : stackBytes n opt < B -> routine n opt up = Some code -> Forall instr_ok code.
Proof.
  intros Hn H. unfold stackBytes in Hn. cbv zeta in Hn. unfold routine in H. destruct (emit _ _) as [[a c]|] eqn:E; [|discriminate]. injection H as <-. apply Forall_app. split; [|apply Forall_app; split].
  - unfold header. apply Forall_app. split; [apply Forall_rev, Forall_map, Forall_forall; intros; exact Logic.I|]. destruct (_ <? _)%nat; [|constructor]. constructor; [|constructor]. cbn [instr_ok]. constructor; [exact Logic.I|]. constructor; [cbn [imm_ok]; lia|constructor].
  - eapply Forall_impl; [|exact (emit_ino _ _ _ _ E)]. intros i. apply ino_ok.
  - unfold footer. apply Forall_app. split; [|apply Forall_map, Forall_forall; intros; exact Logic.I]. destruct (_ <? _)%nat; [|constructor]. constructor; [|constructor]. cbn [instr_ok]. constructor; [exact Logic.I|]. constructor; [cbn [imm_ok]; lia|constructor].
Qed.
(** *** the straight-line routines *)
Ltac ins := repeat first [apply Forall_app; split | apply Forall_cons | apply Forall_nil | exact Logic.I | (apply Forall_forall; intros ? ?; exact Logic.I)].
Lemma Forall_flat {A} (P : A -> Prop) f (l : list nat) : (forall i, Forall P (f i)) -> Forall P (flat_map f l).
Proof. intros H. induction l as [|x l IH]; [constructor|]. cbn [flat_map]. apply Forall_app. split; [apply H|exact IH]. Qed.
Lemma Forall_mapn {A} (P : A -> Prop) (f : nat -> A) (l : list nat) : (forall i, P (f i)) -> Forall P (map f l).
Proof. intros H. apply Forall_map, Forall_forall. intros; apply H. Qed.
Ltac raw_ok := repeat first [apply Forall_app; split | apply Forall_flat; intro | apply Forall_mapn; intro | match goal with |- Forall _ (if ?b then _ else _) => destruct b end | apply Forall_cons | apply Forall_nil | exact Logic.I
  | match goal with |- instr_ok (I _ _) => cbn [instr_ok] | |- instr_ok _ => exact Logic.I | |- imm_ok (OImm _) => cbn; pose proof B_pos; lia end].
Lemma rawAdd_ok n : Forall instr_ok (asm_rawAdd n). Proof. unfold asm_rawAdd, asm_subq. raw_ok. Qed.
Lemma rawSub_ok n : Forall instr_ok (asm_rawSub n). Proof. unfold asm_rawSub, asm_addq. raw_ok. Qed.
Lemma rawNeg_ok n : Forall instr_ok (asm_rawNeg n). Proof. unfold asm_rawNeg. raw_ok. Qed.
Lemma rawCopy_ok n : Forall instr_ok (asm_rawCopy n). Proof. unfold asm_rawCopy. raw_ok. Qed.
Lemma rawZero_ok n : Forall instr_ok (asm_rawZero n). Proof. unfold asm_rawZero. raw_ok. Qed.
