(** Symbolic execution of the tagged x86-64 operations. *)
From Coq Require Import ZArith List Bool Arith Lia.
From Verif Require Import Limbs LimbsFacts X86 X86Sim X86Call X86Raw X86RawFacts X86T X86TWords.
Import ListNotations.
Open Scope Z_scope.

Section TW.
Variable lay : sym -> Z.
Variable ra : Z.
Definition tw (code : list tinstr) (Q : X86RawFacts.st -> Prop) (s : X86RawFacts.st) : Prop := exists s', trun lay ra code s = Some s' /\ Q s'.
Lemma tw_nil (Q : X86RawFacts.st -> Prop) s : Q s -> tw [] Q s.
Proof. intros H. exists s. split; [reflexivity|exact H]. Qed.
Lemma trun_app a b s : trun lay ra (a ++ b) s = match trun lay ra a s with Some s => trun lay ra b s | None => None end.
Proof. revert s. induction a as [|i a IH]; intros s; [reflexivity|]. cbn [app trun]. destruct (tstep lay ra i s); [apply IH|reflexivity]. Qed.
Lemma tw_app a b Q s : tw a (fun s => tw b Q s) s -> tw (a ++ b) Q s.
Proof. intros (s1 & E & s2 & E2 & H). exists s2. split; [rewrite trun_app, E; exact E2|exact H]. Qed.
Lemma tw_mono code (Q Q' : X86RawFacts.st -> Prop) s : (forall s, Q s -> Q' s) -> tw code Q s -> tw code Q' s.
Proof. intros H (s' & E & K). exists s'. auto. Qed.
Lemma tw_cons i code Q s s' : tstep lay ra i s = Some s' -> tw code Q s' -> tw (i :: code) Q s.
Proof. intros E (s2 & E2 & H). exists s2. split; [cbn [trun]; rewrite E; exact E2|exact H]. Qed.
Lemma trun_X code s : trun lay ra (map X code) s = run lay code s.
Proof. revert s. induction code as [|i code IH]; intros s; [reflexivity|]. destruct s as [m sk]. cbn [map trun run tstep]. destruct (step lay i (m, sk)); [apply IH|reflexivity]. Qed.
Lemma t_X code rest Q s : ww lay code (fun s => tw rest Q s) s -> tw (map X code ++ rest) Q s.
Proof. intros (s1 & E & H). apply tw_app. exists s1. split; [rewrite trun_X; exact E|exact H]. Qed.
Lemma t_X1 i rest Q s : ww lay [i] (fun s => tw rest Q s) s -> tw (X i :: rest) Q s.
Proof. intros H. exact (t_X [i] rest Q s H). Qed.
(** jumps *)
Fixpoint tnolab (l : label) (code : list tinstr) : bool := match code with [] => true | X (Lab l') :: code => negb (Nat.eqb l l') && tnolab l code | _ :: code => tnolab l code end.
Lemma tnolab_app l a b : tnolab l (a ++ b) = tnolab l a && tnolab l b.
Proof. induction a as [|i a IH]; [reflexivity|]. destruct i as [j| | | | | | | | | | | | | | | | | | | | | | | | | | | | |]; cbn [app tnolab]; rewrite ?IH; try reflexivity. destruct j; rewrite ?IH; try reflexivity. apply andb_assoc. Qed.
Lemma tnolab_X l code : tnolab l (map X code) = nolab l code.
Proof. induction code as [|i code IH]; [reflexivity|]. cbn [map tnolab nolab]. rewrite IH. destruct i; reflexivity. Qed.
Lemma t_skip l code (Q : X86RawFacts.st -> Prop) m : tnolab l code = true -> Q (m, Some l) -> tw code Q (m, Some l).
Proof.
  intros H K. exists (m, Some l). split; [|exact K]. revert H. clear K. induction code as [|i code IH]; intros H; [reflexivity|]. cbn [trun]. destruct i as [j| | | | | | | | | | | | | | | | | | | | | | | | | | | | |]; cbn [tnolab] in H; cbn [tstep]; try (apply IH; exact H).
  destruct j; cbn [step]; try (apply IH; exact H). apply andb_true_iff in H as [H1 H2]. apply negb_true_iff in H1. rewrite H1. apply IH, H2.
Qed.
(** the code after a label *)
Fixpoint after (l : label) (code : list tinstr) : option (list tinstr) := match code with [] => None | X (Lab l') :: code => if Nat.eqb l l' then Some code else after l code | _ :: code => after l code end.
Lemma t_after l code c2 Q m : after l code = Some c2 -> tw c2 Q (m, None) -> tw code Q (m, Some l).
Proof.
  intros E (s2 & E2 & H). exists s2. split; [|exact H]. clear H. revert E. induction code as [|i code IH]; intros E; [discriminate|]. cbn [trun].
  destruct i as [j| | | | | | | | | | | | | | | | | | | | | | | | | | | | |]; cbn [after] in E; cbn [tstep]; try (apply IH; exact E). destruct j; cbn [step]; try (apply IH; exact E).
  destruct (Nat.eqb l l0); [injection E as ->; exact E2|apply IH; exact E].
Qed.
Lemma after_app l a b c : tnolab l a = true -> after l b = Some c -> after l (a ++ b) = Some c.
Proof.
  intros H E. induction a as [|i a IH]; [exact E|]. destruct i as [j| | | | | | | | | | | | | | | | | | | | | | | | | | | | |]; cbn [tnolab] in H; cbn [app after]; try (apply IH; exact H). destruct j; try (apply IH; exact H).
  apply andb_true_iff in H as [H1 H2]. apply negb_true_iff in H1. rewrite H1. apply IH, H2.
Qed.
Lemma t_lab m l code Q : tw code Q (m, None) -> tw (lab l :: code) Q (m, None).
Proof. intros H. eapply tw_cons; [reflexivity|exact H]. Qed.
Lemma t_hit m l code Q : tw code Q (m, None) -> tw (lab l :: code) Q (m, Some l).
Proof. intros H. eapply tw_cons; [|exact H]. cbn [lab tstep step]. rewrite Nat.eqb_refl. reflexivity. Qed.
Lemma t_jc m l code Q : (cf (fl m) = true -> tw code Q (m, Some l)) -> (cf (fl m) = false -> tw code Q (m, None)) -> tw (jc l :: code) Q (m, None).
Proof. intros H1 H2. destruct (cf (fl m)) eqn:E; [eapply tw_cons; [|apply H1; reflexivity]|eapply tw_cons; [|apply H2; reflexivity]]; cbn; rewrite E; reflexivity. Qed.
Lemma t_jnc m l code Q : (cf (fl m) = false -> tw code Q (m, Some l)) -> (cf (fl m) = true -> tw code Q (m, None)) -> tw (jnc l :: code) Q (m, None).
Proof. intros H1 H2. destruct (cf (fl m)) eqn:E; [eapply tw_cons; [|apply H2; reflexivity]|eapply tw_cons; [|apply H1; reflexivity]]; cbn; rewrite E; reflexivity. Qed.
Lemma t_jmp m l code Q : tw code Q (m, Some l) -> tw (jmp l :: code) Q (m, None).
Proof. intros H. eapply tw_cons; [reflexivity|exact H]. Qed.
Lemma t_jo m l code Q : (ovf (fl m) = true -> tw code Q (m, Some l)) -> (ovf (fl m) = false -> tw code Q (m, None)) -> tw (Jo l :: code) Q (m, None).
Proof. intros H1 H2. destruct (ovf (fl m)) eqn:E; [eapply tw_cons; [|apply H1; reflexivity]|eapply tw_cons; [|apply H2; reflexivity]]; cbn; rewrite E; reflexivity. Qed.
Lemma t_bt m r k code Q : (forall f, cf f = Z.testbit (regs m r) k -> tw code Q (setf m f, None)) -> tw (Bt r k :: code) Q (m, None).
Proof. intros H. eapply tw_cons; [reflexivity|apply H]. reflexivity. Qed.
(** bt and jc *)
Lemma t_btc m r k l code Q : (forall f, Z.testbit (regs m r) k = true -> tw code Q (setf m f, Some l)) -> (forall f, Z.testbit (regs m r) k = false -> tw code Q (setf m f, None)) -> tw (Bt r k :: jc l :: code) Q (m, None).
Proof. intros H1 H2. apply t_bt. intros f Hf. apply t_jc; cbn [setf fl]; rewrite Hf; auto. Qed.
Lemma t_btnc m r k l code Q : (forall f, Z.testbit (regs m r) k = false -> tw code Q (setf m f, Some l)) -> (forall f, Z.testbit (regs m r) k = true -> tw code Q (setf m f, None)) -> tw (Bt r k :: jnc l :: code) Q (m, None).
Proof. intros H1 H2. apply t_bt. intros f Hf. apply t_jnc; cbn [setf fl]; rewrite Hf; auto. Qed.
(** moves *)
Lemma t_mov m d s code Q : tw code Q (setr m d (regs m s), None) -> tw (mov d s :: code) Q (m, None).
Proof. intros H. eapply tw_cons; [|exact H]. cbn. destruct m; reflexivity. Qed.
Lemma t_movi m d v code Q : tw code Q (setr m d v, None) -> tw (movi d v :: code) Q (m, None).
Proof. intros H. eapply tw_cons; [|exact H]. cbn. destruct m; reflexivity. Qed.
Lemma t_ld m d b off a code Q : (regs m b + off) mod B = a -> a mod 8 = 0 -> tw code Q (setr m d (mem m a), None) -> tw (ld d b off :: code) Q (m, None).
Proof. intros E1 E2 H. eapply tw_cons; [|exact H]. unfold ld. cbn [tstep step]. unfold exec. cbn [encodable is_reg is_mem orb andb negb rds rd]. unfold addr. cbv zeta. rewrite E1, E2. cbn. destruct m; reflexivity. Qed.
Lemma t_st m b off s a code Q : (regs m b + off) mod B = a -> a mod 8 = 0 -> tw code Q (setm m a (regs m s), None) -> tw (X86T.st b off s :: code) Q (m, None).
Proof. intros E1 E2 H. eapply tw_cons; [|exact H]. unfold X86T.st. cbn [tstep step]. unfold exec. cbn [encodable is_reg is_mem orb andb negb rds rd]. unfold addr. cbv zeta. rewrite E1, E2. cbn [Z.eqb sem wrs wr]. unfold addr. rewrite E1. destruct m; reflexivity. Qed.
Lemma t_movsx m d s code Q : tw code Q (setr m d (sx32 (regs m s) mod B), None) -> tw (Movsx d s :: code) Q (m, None).
Proof. intros H. eapply tw_cons; [reflexivity|exact H]. Qed.
Lemma t_mov32 m d s code Q : tw code Q (setr m d (regs m s mod W32), None) -> tw (Mov32 d s :: code) Q (m, None).
Proof. intros H. eapply tw_cons; [reflexivity|exact H]. Qed.
Lemma t_lea m d b off a code Q : addr lay m b off = a -> tw code Q (setr m d a, None) -> tw (Lea d b off :: code) Q (m, None).
Proof. intros E H. eapply tw_cons; [reflexivity|]. rewrite E. exact H. Qed.
Lemma t_addi m d v code Q : 0 <= regs m d + v < B -> (forall f, tw code Q (setf (setr m d (regs m d + v)) f, None)) -> tw (addi d v :: code) Q (m, None).
Proof. intros R H. eapply tw_cons; [|apply H]. unfold addi. cbn [tstep step]. unfold exec. cbn [encodable is_reg is_mem orb andb negb rds rd sem]. unfold addf. cbn [wrs wr]. rewrite Z.add_0_r, (Z.mod_small (regs m d + v)) by exact R. reflexivity. Qed.
Lemma t_subi m d v code Q : 0 <= regs m d - v < B -> (forall f, tw code Q (setf (setr m d (regs m d - v)) f, None)) -> tw (subi d v :: code) Q (m, None).
Proof. intros R H. eapply tw_cons; [|apply H]. unfold subi. cbn [tstep step]. unfold exec. cbn [encodable is_reg is_mem orb andb negb rds rd sem]. unfold subf. cbn [wrs wr]. rewrite Z.sub_0_r, (Z.mod_small (regs m d - v)) by exact R. reflexivity. Qed.
Lemma t_zero m d code Q : (forall f, tw code Q (setf (setr m d 0) f, None)) -> tw (zero d :: code) Q (m, None).
Proof. intros H. eapply tw_cons; [|apply H]. unfold zero. cbn. rewrite Z.lxor_nilpotent. reflexivity. Qed.
Lemma t_neg64 m d code Q : (forall f, tw code Q (setf (setr m d ((- regs m d) mod B)) f, None)) -> tw (Neg64 d :: code) Q (m, None).
Proof. intros H. eapply tw_cons; [reflexivity|apply H]. Qed.
Lemma t_mov8 m d v code Q : tw code Q (setr m d (regs m d - regs m d mod 256 + v), None) -> tw (Mov8 d v :: code) Q (m, None).
Proof. intros H. eapply tw_cons; [reflexivity|exact H]. Qed.
Lemma t_shl32 m d k code Q : (forall f, tw code Q (setf (setr m d (regs m d mod W32 * 2 ^ k mod W32)) f, None)) -> tw (Shl32 d k :: code) Q (m, None).
Proof. intros H. eapply tw_cons; [reflexivity|apply H]. Qed.
Lemma t_shl64 m d k code Q : (forall f, tw code Q (setf (setr m d (regs m d * 2 ^ k mod B)) f, None)) -> tw (Shl64 d k :: code) Q (m, None).
Proof. intros H. eapply tw_cons; [reflexivity|apply H]. Qed.
Lemma t_st32hi m b s code Q : regs m b mod 8 = 0 -> tw code Q (setm m (regs m b) (mem m (regs m b) mod W32 + regs m s mod W32 * W32), None) -> tw (St32hi b s :: code) Q (m, None).
Proof. intros E H. eapply tw_cons; [|exact H]. cbn [tstep texec]. rewrite E. reflexivity. Qed.
Lemma t_cmpj m w x y c l u v code Q : cmpval w m (OReg x) = Some u -> cmpval w m y = Some v ->
  (forall f, scond_holds w u v c = true -> tw code Q (setf m f, Some l)) -> (forall f, scond_holds w u v c = false -> tw code Q (setf m f, None)) -> tw (CmpJ w x y c l :: code) Q (m, None).
Proof.
  intros E1 E2 H1 H2. destruct (scond_holds w u v c) eqn:E.
  - eapply tw_cons; [|apply H1; reflexivity]. cbn [tstep]. rewrite E1, E2, E. reflexivity.
  - eapply tw_cons; [|apply H2; reflexivity]. cbn [tstep]. rewrite E1, E2, E. reflexivity.
Qed.
Lemma t_push m r code Q : regs m RSP mod 8 = 0 -> 8 <= regs m RSP < B -> tw code Q (setr (setm m (regs m RSP - 8) (regs m r)) RSP (regs m RSP - 8), None) -> tw (push r :: code) Q (m, None).
Proof.
  intros E R H. eapply tw_cons; [|exact H]. unfold push. cbn [tstep step]. rewrite (Z.mod_small (regs m RSP - 8) B) by lia. replace ((regs m RSP - 8) mod 8) with 0; [reflexivity|]. replace (regs m RSP - 8) with (regs m RSP + (-1) * 8) by lia. rewrite Z.mod_add by lia. symmetry. exact E.
Qed.
Lemma t_pop m r code Q : regs m RSP mod 8 = 0 -> 0 <= regs m RSP -> regs m RSP + 8 < B -> tw code Q (setr (setr m RSP (regs m RSP + 8)) r (mem m (regs m RSP)), None) -> tw (pop r :: code) Q (m, None).
Proof. intros E R1 R2 H. eapply tw_cons; [|exact H]. unfold pop. cbn [tstep step]. cbv zeta. rewrite E. rewrite (Z.mod_small (regs m RSP + 8)) by lia. reflexivity. Qed.
Definition pushed (m : mach) : mach := setr (setm m (regs m RSP - 8) ra) RSP (regs m RSP - 8).
Lemma t_callf m f m' code Q : regs m RSP mod 8 = 0 -> 8 <= regs m RSP < B -> f (pushed m) = Some m' -> tw code Q (m', None) -> tw (Callf f :: code) Q (m, None).
Proof.
  intros E R F H. eapply tw_cons; [|exact H]. cbn [tstep]. rewrite (Z.mod_small (regs m RSP - 8) B) by lia. replace ((regs m RSP - 8) mod 8) with 0; [|replace (regs m RSP - 8) with (regs m RSP + (-1) * 8) by lia; rewrite Z.mod_add by lia; symmetry; exact E].
  fold (pushed m). rewrite F. reflexivity.
Qed.
(** ret: the rest of the code has no label [l_ret] *)
Lemma t_ret m code (Q : X86RawFacts.st -> Prop) : tnolab l_ret code = true -> Q (m, Some l_ret) -> tw (TRet :: code) Q (m, None).
Proof. intros H K. eapply tw_cons; [reflexivity|]. apply t_skip; assumption. Qed.
Lemma tcall_of code m (K : mach -> Prop) : tw code (fun s => snd s = Some l_ret /\ regs (fst s) RSP = regs m RSP /\ mem (fst s) (regs m RSP) = mem m (regs m RSP) /\ K (setr (fst s) RSP ((regs m RSP + 8) mod B))) (m, None) ->
  exists m', tcall lay ra code m = Some m' /\ K m'.
Proof.
  intros ([m' sk] & E & H1 & H2 & H3 & H4). cbn [fst snd] in *. subst sk. eexists. split; [|exact H4]. unfold tcall. rewrite E, H2, H3, !Z.eqb_refl. reflexivity.
Qed.
End TW.
