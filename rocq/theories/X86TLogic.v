(** The comparisons storing their result, and the logical operations, on the machine. *)
From Coq Require Import ZArith Znumtheory List Bool Arith Lia.
From Verif Require Import Limbs LimbsFacts Gen GenFacts Spec Raw RawFacts Fr FrSpec X86 X86Gen X86Sim X86Mont X86Call X86Routines X86Raw X86RawFacts X86RawFacts2 X86RawFacts3 X86Final X86T X86TWords X86TFacts X86THelp X86THelp2 X86THelp3 X86TSpec X86TInv X86TConv X86TFrame X86TLoop X86TCmp X86TFinal.
Import ListNotations.
Open Scope Z_scope.

Lemma b2z_int b : is_int32 (Z.b2z b). Proof. unfold is_int32. destruct b; cbn; lia. Qed.
Lemma b2z_small b : Z.b2z b mod W32 = Z.b2z b. Proof. destruct b; reflexivity. Qed.
Lemma b2z_B b : 0 <= Z.b2z b < B. Proof. destruct b; split; try discriminate; reflexivity. Qed.
Lemma b2z_q q b : 1 < q -> Z.b2z b mod q = Z.b2z b. Proof. intros H. apply Z.mod_small. destruct b; cbn; lia. Qed.

(** *** storing a truth value *)
Section Store.
Variable q : Z.
Variable P : zq.
Hypothesis OK : zq_ok q P.
Notation n := (p_n64 P).
Notation opt := (p_opt P).
Variable lay : sym -> Z.
Variable ra : Z.
Hypothesis Hra : 0 <= ra < B.
Variable m0 : mach.
Variable D : Z.
Hypothesis HD : 0 <= D.
Hypothesis Rdy : xready P lay D m0.
Notation sp0 := (regs m0 RSP).
Variable pr : Z.
Hypothesis Dst : xdest P lay D m0 pr.
Hypothesis Edi : regs m0 RDI = pr.
Hypothesis HQ : 2 ^ 32 < q.
(** a state in which nothing but the stack was written *)
Definition calm (m : mach) : Prop := words m /\ (forall x, ~ (sp0 - D <= x < sp0) -> mem m x = mem m0 x) /\ (forall r, callee_saved r -> regs m r = regs m0 r) /\ regs m RSP = sp0 /\ regs m RDI = pr.
Lemma calm0 : calm m0. Proof. split; [apply (xr_words _ _ _ _ Rdy)|]. auto. Qed.
Definition Fin (b : bool) (s : X86RawFacts.st) : Prop := snd s = Some l_ret /\ regs (fst s) RSP = sp0 /\ mem (fst s) sp0 = mem m0 sp0 /\ exists L, valRes q P (Z.b2z b) L /\ Cres D (S n) pr L m0 (setr (fst s) RSP ((sp0 + 8) mod B)).
Lemma calm_fin b m code : calm m -> tnolab l_ret code = true -> tw lay ra (TRet :: code) (Fin b) (setm m pr (Z.b2z b), None).
Proof.
  intros (W & M & C & E1 & E2) N. apply (finish_short q P OK lay ra Hra m0 D HD pr Dst Edi (valRes q P (Z.b2z b)) (Z.b2z b)); [|apply b2z_int|cbn [setm mem]; rewrite mupd_eq; symmetry; apply b2z_small|exact N|].
  - pose proof (N1 q P OK). split; [|split; [cbn [setm regs]; lia|split; [exact E2|apply C; unfold callee_saved; cbn [In]; tauto]]]. split; [apply words_setm; [exact W|apply b2z_B]|]. split.
    + intros x Hx Hs. cbn [setm mem]. rewrite mupd_neq by lia. apply M, Hs.
    + intros r Hr. cbn [setm regs]. apply C. unfold callee_saved. cbn [In] in *. intuition.
  - intros l' Hl'. rewrite <- (b2z_q q b ltac:(lia)) at 1. apply (short_val q P OK HQ); [apply b2z_int|exact Hl'].
Qed.
Lemma calm_st b r m code : calm m -> regs m r = Z.b2z b -> tnolab l_ret code = true -> tw lay ra (X86T.st RDI 0 r :: TRet :: code) (Fin b) (m, None).
Proof.
  intros C E N. pose proof (pr_facts q P OK lay m0 D pr Dst) as (P1 & P2 & P3). apply (t_st lay ra _ _ _ _ pr); [rewrite (proj2 (proj2 (proj2 (proj2 C)))), Z.add_0_r; apply Z.mod_small; lia|exact P2|]. rewrite E. apply calm_fin; assumption.
Qed.
Lemma fin_yields code f b : f = tcall lay ra code -> tw lay ra code (Fin b) (m0, None) -> exists m', f m0 = Some m' /\ xyields q n D pr (Z.b2z b) m0 m'.
Proof. intros Ef H. destruct (t_finish P lay ra m0 D pr (valRes q P (Z.b2z b)) f code H Ef) as (m' & L & E & RS & C). exists m'. split; [exact E|]. exact (yields_of q P m0 _ _ _ _ _ RS C). Qed.
(** a comparison in rax, perhaps negated *)
Lemma store_cmp f flip b : 8 <= D -> (exists m', f (pushed ra m0) = Some m' /\ BRes (pushed ra m0) (D - 8) b m') -> tw lay ra (asm_cmp f flip) (Fin (xorb flip b)) (m0, None).
Proof.
  intros H8 (m' & E & A & (W & M & C & S) & DI). pose proof (xr_room _ _ _ _ Rdy) as RM. pose proof (sp0_top P lay m0 D Rdy) as ST. pose proof (xr_align _ _ _ _ Rdy) as AL. pose proof (xr_words _ _ _ _ Rdy) as W0.
  unfold asm_cmp. cbn [app]. eapply t_callf; [exact AL|lia|exact E|].
  assert (RP : regs (pushed ra m0) RSP = sp0 - 8) by (unfold pushed; cbn [setr regs]; apply rupd_eq).
  assert (CM : calm m').
  { split; [exact W|]. rewrite RP in *. split; [|split; [|split]].
    - intros x Hx. rewrite M by lia. unfold pushed. cbn [setr setm mem]. apply mupd_neq. lia.
    - intros r Hr. rewrite C by exact Hr. unfold pushed. cbn [setr setm regs]. apply rupd_neq. intros ->. unfold callee_saved in Hr. cbn [In] in Hr. intuition discriminate.
    - rewrite S, Z.mod_small by lia. lia.
    - rewrite DI. unfold pushed. cbn [setr setm regs]. rewrite rupd_neq by discriminate. exact Edi. }
  destruct flip; cbn [app].
  - eapply tw_cons; [cbn [tstep step]; unfold exec; cbn [encodable is_reg is_mem orb andb negb rds rd sem wrs wr]; reflexivity|]. cbn [setf]. apply (calm_st (xorb true b) RAX); [|rg; rewrite A; destruct b; reflexivity|reflexivity].
    destruct CM as (C1 & C2 & C3 & C4 & C5). split; [apply words_setf, words_setr; [exact C1|rewrite A; destruct b; split; try discriminate; reflexivity]|]. split; [exact C2|]. split; [|split; [rg; exact C4|rg; exact C5]].
    intros r Hr. cbn [setf setr regs]. rewrite rupd_neq; [apply C3, Hr|]. intros ->. unfold callee_saved in Hr. cbn [In] in Hr. intuition discriminate.
  - apply (calm_st (xorb false b) RAX); [exact CM|rewrite A; destruct b; reflexivity|reflexivity].
Qed.
(** the arguments of the comparison *)
Lemma ready_pushed : 8 <= D -> xready P lay (D - 8) (pushed ra m0).
Proof.
  intros H8. pose proof (xr_room _ _ _ _ Rdy) as RM. pose proof (xr_align _ _ _ _ Rdy) as AL. pose proof (xr_words _ _ _ _ Rdy) as W0. pose proof (proj1 W0 RSP). assert (RP : regs (pushed ra m0) RSP = sp0 - 8) by (unfold pushed; cbn [setr regs]; apply rupd_eq).
  constructor; rewrite ?RP.
  - unfold pushed. apply words_setr; [apply words_setm; assumption|lia].
  - apply al8m, AL.
  - lia.
  - intros s. destruct (xr_data _ _ _ _ Rdy s) as [A O]. unfold xoff in *. rewrite RP. split; [|lia]. eapply at_ext; [|exact A]. intros x Hx. unfold pushed. cbn [setr setm mem]. apply mupd_neq. lia.
Qed.
Lemma off_pushed p k : 8 <= D -> xoff D m0 p k -> xoff (D - 8) (pushed ra m0) p k.
Proof. intros H8 O. assert (RP : regs (pushed ra m0) RSP = sp0 - 8) by (unfold pushed; cbn [setr regs]; apply rupd_eq). unfold xoff in *. rewrite RP. lia. Qed.
Lemma fields_pushed p s t l : 8 <= D -> xfields n m0 p s t l -> xoff D m0 p (S n) -> xfields n (pushed ra m0) p s t l.
Proof. intros H8 (F1 & F2 & F3) O. split; [exact F1|]. split; [exact F2|]. eapply at_ext; [|exact F3]. intros x Hx. cbn [length] in Hx. rewrite (proj1 F2) in Hx. unfold pushed. cbn [setr setm mem]. apply mupd_neq. unfold xoff in O. lia. Qed.
End Store.

(** *** the truth of an element *)
Section Truth.
Variable q : Z.
Variable P : zq.
Hypothesis OK : zq_ok q P.
Notation n := (p_n64 P).
Variable lay : sym -> Z.
Variable ra : Z.
Hypothesis HQ : 2 ^ 32 < q.
Definition keepx (res : reg) (m m' : mach) : Prop := words m' /\ mem m' = mem m /\ (forall r, r <> RAX -> r <> res -> regs m' r = regs m r).
Lemma short_true s t : is_int32 s -> (word_of s t mod W32 =? 0) = (s mod q =? 0).
Proof.
  intros H. rewrite word_lo. unfold is_int32 in H. destruct (Z.eqb_spec s 0) as [->|N]; [reflexivity|]. transitivity false; [|symmetry]; apply Z.eqb_neq; intros E; apply N.
  - rewrite <- (sx32_int s H), <- sx32_mod, E. reflexivity.
  - rewrite <- (signed_short q s HQ H), E. unfold signed. destruct (Z.leb_spec 0 (q / 2)) as [L|L]; [reflexivity|]. assert (0 <= q / 2) by (apply Z.div_pos; lia). lia.
Qed.
Lemma t_isTrue m res src l0 p s t l v rest Q : l0 = 10%nat \/ l0 = 20%nat -> words m -> regs m src = p -> src <> RAX -> xfields n m p s t l -> denotes q n s t l v ->
  (forall m', keepx res m m' -> regs m' res = Z.b2z (negb (v =? 0)) -> tw lay ra rest Q (m', None)) -> tw lay ra (isTrue n res src l0 ++ rest) Q (m, None).
Proof.
  intros Hl W E Ns F V H. pose proof (N1 q P OK) as HN. pose proof (e_ptr q P OK m p s t l F) as (A1 & A2 & A3). pose proof (e_type q P s t l v V) as T. pose proof (v_range q P s t l v V) as VR.
  assert (K0 : forall m' b, words m' -> mem m' = mem m -> (forall r, r <> RAX -> regs m' r = regs m r) -> negb (v =? 0) = b -> tw lay ra rest Q (setr m' res (Z.b2z b), None)).
  { intros m' b H1 H2 H3 H4. apply H; [|rewrite H4; cbn [setr regs]; apply rupd_eq]. split; [apply words_setr; [exact H1|apply b2z_B]|]. split; [exact H2|]. intros r N1 N2. cbn [setr regs]. rewrite rupd_neq by exact N2. apply H3, N1. }
  unfold isTrue. rewrite <- !app_assoc. cbn [app]. apply (t_ld lay ra _ _ _ _ p); [rewrite E, Z.add_0_r; apply Z.mod_small; lia|exact A2|]. rewrite (e_head P m p s t l F).
  set (m1 := setr m RAX (word_of s t)). assert (W1 : words m1) by (apply words_setr; [exact W|apply word_range, T]). assert (R1 : regs m1 RAX = word_of s t) by (unfold m1; cbn [setr regs]; apply rupd_eq). assert (X1 : forall r, r <> RAX -> regs m1 r = regs m r) by (intros r Nr; unfold m1; cbn [setr regs]; apply rupd_neq, Nr).
  assert (M1 : mem m1 = mem m) by reflexivity. clearbody m1.
  apply t_btc; rewrite R1, word_63 by exact T; intros f TL.
  - eapply t_after; [destruct Hl as [-> | ->]; reflexivity|]. destruct F as (F1 & F2 & F3). pose proof (at_tail _ _ _ _ F3) as A. assert (A' : at_addr (setf m1 f) (p + 8) l) by (eapply at_ext; [|exact A]; intros x _; cbn [setf mem]; rewrite M1; reflexivity).
    destruct (at_vals _ _ _ _ F2 A') as [B1 B2]. apply t_X. eapply ww_mono; [|apply (true_loop lay n (setf m1 f) (words_setf _ _ W1) src p (l0 + 2)%nat); [cbn [setf regs]; rewrite X1 by exact Ns; exact E|exact Ns|exact A1|exact B1]].
    intros [m' sk] [(O1 & O2 & O3) Esk]. cbn [fst snd] in *. cbn [setf mem regs] in O1, O2. rewrite B2 in Esk.
    assert (EV : (eval l =? 0) = (v =? 0)). { destruct (tmont t) eqn:TM; [rewrite (v_mont q P m p s t l v (conj F1 (conj F2 F3)) V TM)|rewrite (v_long q P m p s t l v (conj F1 (conj F2 F3)) V TL TM); reflexivity]. rewrite <- (mont_eqb q P OK v 0 VR ltac:(lia)). rewrite Z.mul_0_l, Z.mod_0_l by lia. reflexivity. }
    rewrite EV in Esk. subst sk. assert (W' : words m') by (split; [intros r; destruct (reg_dec r RAX) as [->|Nr]; [exact O3|rewrite O2 by exact Nr; apply W1]|intros x; rewrite O1; apply W1]).
    destruct (v =? 0) eqn:E0.
    + apply t_lab. apply t_movi. apply t_jmp. eapply t_after; [destruct Hl as [-> | ->]; reflexivity|]. apply (K0 m' false); [exact W'|congruence|intros r Nr; rewrite O2 by exact Nr; apply X1, Nr|first [rewrite E0; reflexivity | reflexivity]].
    + eapply t_after; [destruct Hl as [-> | ->]; reflexivity|]. apply t_movi. apply t_lab. apply (K0 m' true); [exact W'|congruence|intros r Nr; rewrite O2 by exact Nr; apply X1, Nr|first [rewrite E0; reflexivity | reflexivity]].
  - assert (EV : (word_of s t mod W32 =? 0) = (v =? 0)) by (rewrite short_true by apply F; rewrite <- (v_short q P m p s t l v F V TL); reflexivity).
    eapply tw_cons; [reflexivity|]. match goal with |- tw _ _ _ _ (?mm, _) => set (m2 := mm) end. assert (Z2 : zf (fl m2) = (v =? 0)) by (rewrite <- EV, <- R1; reflexivity). assert (W2 : words m2) by exact W1. assert (R2 : regs m2 = regs m1) by reflexivity. assert (M2 : mem m2 = mem m) by exact M1. clearbody m2.
    eapply tw_cons; [cbn [tstep step holds_cond]; rewrite Z2; reflexivity|]. destruct (v =? 0) eqn:E0.
    + eapply tw_cons; [reflexivity|]. eapply tw_cons; [cbn [lab tstep step]; replace (Nat.eqb (l0 + 1) l0) with false by (destruct Hl as [-> | ->]; reflexivity); reflexivity|].
      apply t_over; [rewrite tnolab_X; apply nolab_flat; reflexivity|]. apply t_hit. apply t_movi. apply t_jmp. eapply t_after; [destruct Hl as [-> | ->]; reflexivity|]. apply (K0 m2 false); [exact W2|exact M2|intros r Nr; rewrite R2; apply X1, Nr|first [rewrite E0; reflexivity | reflexivity]].
    + apply t_jmp. eapply tw_cons; [cbn [lab tstep step]; replace (Nat.eqb (l0 + 2) l0) with false by (destruct Hl as [-> | ->]; reflexivity); reflexivity|].
      apply t_over; [rewrite tnolab_X; apply nolab_flat; reflexivity|]. eapply t_after; [destruct Hl as [-> | ->]; reflexivity|]. apply t_movi. apply t_lab. apply (K0 m2 true); [exact W2|exact M2|intros r Nr; rewrite R2; apply X1, Nr|first [rewrite E0; reflexivity | reflexivity]].
Qed.
End Truth.
