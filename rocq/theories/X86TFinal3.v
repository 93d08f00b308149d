(** The tagged x86-64 comparisons and logical operations: from the proofs on the machine to the statements. *)
From Coq Require Import ZArith List Bool Arith Lia.
From Verif Require Import Limbs LimbsFacts Gen GenFacts Spec Raw RawFacts Fr FrSpec X86 X86Gen X86Sim X86Mont X86Call X86Routines X86Raw X86RawFacts X86RawFacts2 X86RawFacts3 X86Final X86T X86TWords X86TFacts X86THelp X86THelp2 X86THelp3 X86TSpec X86TInv X86TConv X86TFrame X86TLoop X86TCmp X86TFinal X86TLogic.
Import ListNotations.
Open Scope Z_scope.
Section F.
Variable q : Z.
Variable P : zq.
Hypothesis OK : zq_ok q P.
Notation n := (p_n64 P).
Notation opt := (p_opt P).
Variable lay : sym -> Z.
Variable ra : Z.
Hypothesis Hra : 0 <= ra < B.
Variable m : mach.
Hypothesis HQ : 2 ^ 32 < q.
Notation pr := (regs m RDI).
Variables a b : Z.
Hypothesis Aa : xelt q n m (regs m RSI) a.
Section Two.
Hypothesis Ab : xelt q n m (regs m RDX) b.
Section Cmp.
Hypothesis N12 : neededFor n opt <> 12%nat.
Hypothesis N7 : n <> 7%nat.
Notation D := (D2 n opt).
Hypothesis Rdy : xready P lay D m.
Hypothesis Dst : xdest P lay D m pr.
Hypothesis Oa : xoff D m (regs m RSI) (S n).
Hypothesis Ob : xoff D m (regs m RDX) (S n).
Lemma D_pos : 8 <= D. Proof. unfold D2. pose proof (sb_pos P). lia. Qed.
Lemma D_0 : 0 <= D. Proof. pose proof D_pos. lia. Qed.
Lemma D_cmp : stackBytes n opt + 16 * Z.of_nat (S n) + 64 <= D - 8. Proof. unfold D2. lia. Qed.
Notation mp := (pushed ra m).
Ltac cmp_call H := destruct Aa as (s1 & t1 & l1 & F1 & V1); destruct Ab as (s2 & t2 & l2 & F2 & V2);
  refine (H q P OK lay ra Hra mp (D - 8) D_cmp (ready_pushed P lay ra Hra m D Rdy D_pos) HQ N12 N7 (regs m RSI) s1 t1 l1 a (fields_pushed P ra m D _ _ _ _ D_pos F1 Oa) V1 (off_pushed ra m D _ _ D_pos Oa) _ (regs m RDX) s2 t2 l2 b (fields_pushed P ra m D _ _ _ _ D_pos F2 Ob) V2 (off_pushed ra m D _ _ D_pos Ob) _);
  unfold pushed; cbn [setr setm regs]; apply rupd_neq; discriminate.
Lemma P_rgt : exists m', f_rgt lay ra n opt mp = Some m' /\ BRes mp (D - 8) (signed q b <? signed q a) m'.
Proof. cmp_call rgt_call. Qed.
Lemma P_rlt : exists m', f_rlt lay ra n opt mp = Some m' /\ BRes mp (D - 8) (signed q a <? signed q b) m'.
Proof. cmp_call rlt_call. Qed.
Lemma P_req : exists m', f_req lay ra n opt mp = Some m' /\ BRes mp (D - 8) (a =? b) m'.
Proof. cmp_call req_call. Qed.
Lemma F_store f flip b' : (exists m', f mp = Some m' /\ BRes mp (D - 8) b' m') -> exists m', tcall lay ra (asm_cmp f flip) m = Some m' /\ xyields q n D pr (Z.b2z (xorb flip b')) m m'.
Proof. intros H. apply (fin_yields q P lay ra m D pr (asm_cmp f flip)); [reflexivity|]. apply (store_cmp q P OK lay ra Hra m D D_0 Rdy pr Dst eq_refl HQ); [apply D_pos|exact H]. Qed.
Lemma F_eq : exists m', f_eq lay ra n opt m = Some m' /\ xyields q n D pr (Z.b2z (a =? b)) m m'.
Proof. rewrite <- (xorb_false_l (a =? b)). exact (F_store _ false _ P_req). Qed.
Lemma F_neq : exists m', f_neq lay ra n opt m = Some m' /\ xyields q n D pr (Z.b2z (negb (a =? b))) m m'.
Proof. rewrite <- (xorb_true_l (a =? b)). exact (F_store _ true _ P_req). Qed.
Lemma F_lt : exists m', f_lt lay ra n opt m = Some m' /\ xyields q n D pr (Z.b2z (signed q a <? signed q b)) m m'.
Proof. rewrite <- (xorb_false_l (signed q a <? signed q b)). exact (F_store _ false _ P_rlt). Qed.
Lemma F_gt : exists m', f_gt lay ra n opt m = Some m' /\ xyields q n D pr (Z.b2z (signed q b <? signed q a)) m m'.
Proof. rewrite <- (xorb_false_l (signed q b <? signed q a)). exact (F_store _ false _ P_rgt). Qed.
Lemma F_leq : exists m', f_leq lay ra n opt m = Some m' /\ xyields q n D pr (Z.b2z (signed q a <=? signed q b)) m m'.
Proof. rewrite Z.leb_antisym, <- xorb_true_l. exact (F_store _ true _ P_rgt). Qed.
Lemma F_geq : exists m', f_geq lay ra n opt m = Some m' /\ xyields q n D pr (Z.b2z (signed q b <=? signed q a)) m m'.
Proof. rewrite Z.leb_antisym, <- xorb_true_l. exact (F_store _ true _ P_rlt). Qed.
End Cmp.
(** *** the logical operations *)
Section Logic.
Hypothesis Rdy : xready P lay 0 m.
Hypothesis Dst : xdest P lay 0 m pr.
Notation Fin := (Fin q P m 0 pr).
Lemma two_true op (g : bool -> bool -> bool) : (forall m x y f, regs m RCX = Z.b2z x -> regs m R8 = Z.b2z y -> exists f', tstep lay ra (op RCX R8) (setf m f, None) = Some (setf (setr m RCX (Z.b2z (g y x))) f', None)) ->
  tw lay ra (asm_logical n op) (Fin (g (negb (a =? 0)) (negb (b =? 0)))) (m, None).
Proof.
  intros Hop. destruct Aa as (s1 & t1 & l1 & F1 & V1). destruct Ab as (s2 & t2 & l2 & F2 & V2). unfold asm_logical. pose proof (xr_words _ _ _ _ Rdy) as W.
  apply (t_isTrue q P OK lay ra HQ m R8 RSI 10%nat (regs m RSI) s1 t1 l1 a) ; [left; reflexivity|exact W|reflexivity|discriminate|exact F1|exact V1|]. intros m1 (W1 & M1 & K1) E1.
  apply (t_isTrue q P OK lay ra HQ m1 RCX RDX 20%nat (regs m RDX) s2 t2 l2 b); [right; reflexivity|exact W1|apply K1; discriminate|discriminate| |exact V2|].
  - destruct F2 as (G1 & G2 & G3). split; [exact G1|]. split; [exact G2|]. eapply at_ext; [|exact G3]. intros x _. rewrite M1. reflexivity.
  - intros m2 (W2 & M2 & K2) E2. destruct (Hop m2 (negb (b =? 0)) (negb (a =? 0)) (fl m2)) as (f' & Ef); [exact E2|rewrite K2 by discriminate; exact E1|]. replace (setf m2 (fl m2)) with m2 in Ef by (destruct m2; reflexivity).
    eapply tw_cons; [exact Ef|]. apply (calm_st q P OK lay ra Hra m 0 (Z.le_refl 0) pr Dst eq_refl HQ _ RCX); [|rg; reflexivity|reflexivity].
    split; [apply words_setf, words_setr; [exact W2|apply b2z_B]|]. split; [intros x _; cbn [setf setr mem]; rewrite M2, M1; reflexivity|]. split; [|split; rg; rewrite K2, K1 by discriminate; reflexivity].
    intros r Hr. unfold callee_saved in Hr. cbn [In] in Hr. assert (NN : r <> RCX /\ r <> RAX /\ r <> R8) by (repeat split; intros ->; intuition discriminate). cbn [setf setr regs]. rewrite rupd_neq by apply NN. rewrite K2, K1 by apply NN. reflexivity.
Qed.
Lemma F_land : exists m', f_land lay ra n m = Some m' /\ xyields q n 0 pr (Z.b2z (negb (a =? 0) && negb (b =? 0))) m m'.
Proof.
  apply (fin_yields q P lay ra m 0 pr (asm_land n)); [reflexivity|]. apply (two_true And64 andb). intros m' x y f H1 H2. cbn [tstep texec setf regs]. rewrite H1, H2. eexists. cbn [setf]. destruct x, y; reflexivity.
Qed.
Lemma F_lor : exists m', f_lor lay ra n m = Some m' /\ xyields q n 0 pr (Z.b2z (negb (a =? 0) || negb (b =? 0))) m m'.
Proof.
  apply (fin_yields q P lay ra m 0 pr (asm_lor n)); [reflexivity|]. apply (two_true Or64 orb). intros m' x y f H1 H2. cbn [tstep texec setf regs]. rewrite H1, H2. eexists. cbn [setf]. destruct x, y; reflexivity.
Qed.
End Logic.
End Two.
Lemma F_lnot : xready P lay 0 m -> xdest P lay 0 m pr -> exists m', f_lnot lay ra n m = Some m' /\ xyields q n 0 pr (Z.b2z (a =? 0)) m m'.
Proof.
  intros Rdy Dst. apply (fin_yields q P lay ra m 0 pr (asm_lnot n)); [reflexivity|]. destruct Aa as (s1 & t1 & l1 & F1 & V1). pose proof (xr_words _ _ _ _ Rdy) as W. pose proof (pr_facts q P OK lay m 0 pr Dst) as (P1 & P2 & P3).
  unfold asm_lnot. apply (t_isTrue q P OK lay ra HQ m RCX RSI 10%nat (regs m RSI) s1 t1 l1 a); [left; reflexivity|exact W|reflexivity|discriminate|exact F1|exact V1|]. intros m1 (W1 & M1 & K1) E1.
  assert (C : forall f, calm m 0 pr (setf m1 f)).
  { intros f. split; [apply words_setf, W1|]. split; [intros x _; cbn [setf mem]; rewrite M1; reflexivity|]. split; [|split; apply K1; discriminate]. intros r Hr. unfold callee_saved in Hr. cbn [In] in Hr. apply K1; intros ->; intuition discriminate. }
  assert (ST : forall f v code, tw lay ra (TRet :: code) (Fin q P m 0 pr (a =? 0)) (setm (setf m1 f) pr v, None) -> tw lay ra (X (I Imov [OMem (BReg RDI) 0; OImm v]) :: TRet :: code) (Fin q P m 0 pr (a =? 0)) (setf m1 f, None)).
  { intros f v code H. eapply tw_cons; [|exact H]. cbn [tstep step]. unfold exec. cbn [encodable is_reg is_mem orb andb negb rds rd sem wrs wr]. unfold addr. cbn [setf regs]. rewrite (K1 RDI) by discriminate. rewrite Z.add_0_r, (Z.mod_small (regs m RDI) B) by lia. rewrite P2. reflexivity. }
  eapply tw_cons; [cbn [tstep step]; unfold exec; cbn [encodable is_reg is_mem orb andb negb rds rd sem]; cbn [wrs]; reflexivity|]. rewrite E1, Z.land_diag. cbn [setf].
  eapply tw_cons; [cbn [tstep step holds_cond setf fl zf]; reflexivity|]. pose proof (calm_fin q P OK lay ra Hra m 0 (Z.le_refl 0) pr Dst eq_refl HQ (a =? 0)) as CF.
  destruct (a =? 0); cbn [negb Z.b2z Z.eqb] in *.
  - eapply t_after; [reflexivity|]. apply ST. apply CF; [apply C|reflexivity].
  - apply ST. apply CF; [apply C|reflexivity].
Qed.
Lemma F_isTrue v : words m -> xelt q n m (regs m RDI) v -> exists m', f_isTrue lay ra n m = Some m' /\ regs m' RAX = Z.b2z (negb (v =? 0)) /\ xframe 0 0 0 m m'.
Proof.
  clear Hra Aa. intros W (s1 & t1 & l1 & F1 & V1). apply (tcall_of lay ra (asm_isTrue n) m (fun m' => regs m' RAX = Z.b2z (negb (v =? 0)) /\ xframe 0 0 0 m m')). unfold asm_isTrue.
  apply (t_isTrue q P OK lay ra HQ m RAX RDI 10%nat (regs m RDI) s1 t1 l1 v); [left; reflexivity|exact W|reflexivity|discriminate|exact F1|exact V1|]. intros m1 (W1 & M1 & K1) E1. pose proof B_pos.
  apply t_ret; [reflexivity|]. cbn [fst snd]. split; [reflexivity|]. split; [apply K1; discriminate|]. split; [rewrite M1; reflexivity|]. split; [rg; exact E1|]. split; [apply words_setr; [exact W1|apply Z.mod_pos_bound; lia]|]. split; [intros x _ _; cbn [setr mem]; rewrite M1; reflexivity|]. split; [|rg; reflexivity].
  intros r Hr. unfold callee_saved in Hr. cbn [In] in Hr. cbn [setr regs]. rewrite rupd_neq by (intros ->; intuition discriminate). apply K1; intros ->; intuition discriminate.
Qed.
End F.
