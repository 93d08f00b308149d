(** Proofs about the x86-64 toInt. *)
From Coq Require Import ZArith Znumtheory List Bool Arith Lia.
From Verif Require Import Limbs LimbsFacts Gen GenFacts Spec Raw RawFacts Fr FrSpec X86 X86Gen X86Sim X86Mont X86Call X86Routines X86Raw X86RawFacts X86RawFacts3 X86Final X86T X86TWords X86TFacts X86TSpec X86TInv X86TConv X86TFrame X86TCmp X86TShift X86TInt.
From Verif Require X86TRawShift.
Import ListNotations.
Open Scope Z_scope.
(** *** digits *)
Lemma es_range (x : nat -> Z) k : (forall i, 0 <= x i < B) -> 0 <= es x k < B ^ Z.of_nat k.
Proof.
  intros H. induction k as [|k IH]; [cbn; lia|]. cbn [es]. pose proof (H k). rewrite Nat2Z.inj_succ, Z.pow_succ_r by lia. pose proof (Z.pow_pos_nonneg B (Z.of_nat k) eq_refl ltac:(lia)). nia.
Qed.
Lemma es_split (x : nat -> Z) i k : es x (i + k) = es x i + B ^ Z.of_nat i * es (fun j => x (i + j)%nat) k.
Proof.
  induction k as [|k IH]; [rewrite Nat.add_0_r; cbn [es]; lia|]. replace (i + S k)%nat with (S (i + k)) by lia. cbn [es]. rewrite IH, Nat2Z.inj_add, Z.pow_add_r by lia. ring.
Qed.
Lemma es_digit (x : nat -> Z) n j : (forall i, 0 <= x i < B) -> (j < n)%nat -> es x n / B ^ Z.of_nat j mod B = x j.
Proof.
  intros H Hj. replace n with (j + (1 + (n - j - 1)))%nat by lia. rewrite es_split, es_split. pose proof (es_range x j H) as R. pose proof (Z.pow_pos_nonneg B (Z.of_nat j) eq_refl ltac:(lia)) as Bp.
  rewrite Z.add_comm, (Z.mul_comm (B ^ Z.of_nat j)), Z.div_add_l, (Z.div_small (es x j)), Z.add_0_r by lia. cbn [es]. change (Z.of_nat 0) with 0. change (Z.of_nat 1) with 1. rewrite Z.pow_0_r, Z.pow_1_r, Z.mul_1_r, Nat.add_0_r, Z.add_0_l, Z.mul_comm, Z_mod_plus_full. apply Z.mod_small, H.
Qed.
Section Chains.
Variable lay : sym -> Z.
Variable ra : Z.
Notation tw := (tw lay ra).
Variable p : Z.
Variable n : nat.
Hypothesis Pp : X86RawFacts.ptr (p + 8) n.
Hypothesis Hp : 0 <= p.
Hypothesis Pq : X86RawFacts.ptr (lay Sq) n.
Variable m : mach.
Hypothesis W : words m.
Hypothesis Ep : regs m RDI = p.
Notation bi j := (mem m (p + 8 + 8 * Z.of_nat j)).
Notation qi j := (mem m (lay Sq + 8 * Z.of_nat j)).
Definition sameC (m' : mach) : Prop := mem m' = mem m /\ forall x, x <> RCX -> regs m' x = regs m x.
Lemma sameC_refl : sameC m. Proof. split; auto. Qed.
Lemma sameC_set m1 v f : sameC m1 -> sameC (setf (setr m1 RCX v) f).
Proof. intros [H1 H2]. split; [exact H1|]. intros x Hx. cbn [setf setr regs]. rewrite rupd_neq by exact Hx. apply H2, Hx. Qed.
Lemma words_set m1 v f : words m1 -> 0 <= v < B -> words (setf (setr m1 RCX v) f).
Proof. intros H Hv. apply (words_setr m1 RCX v H Hv). Qed.
Lemma cell m1 j : sameC m1 -> (j < n)%nat -> rd lay m1 (at8 RDI (j + 1)) = Some (bi j).
Proof. intros [E R] Hj. destruct Pp as (P1 & P2 & P3). rewrite (rd_at8 lay m1 RDI p (j + 1) (p + 8 + 8 * Z.of_nat j)); [rewrite E; reflexivity|rewrite R by discriminate; exact Ep|lia|lia|]. rewrite Z.add_comm, (Z.mul_comm 8), Z.add_comm, Z.mod_add by lia. exact P2. Qed.
Lemma cellq m1 j : sameC m1 -> (j < n)%nat -> rd lay m1 (q8 j) = Some (qi j).
Proof. intros [E R] Hj. rewrite (q_cell lay n Pq m1 j Hj), E. reflexivity. Qed.
Lemma zeroI_nolab l L : tnolab l (flat_map zeroI L) = true.
Proof. induction L as [|i L IH]; [reflexivity|]. cbn [flat_map zeroI app tnolab jnz]. exact IH. Qed.
Lemma sbbI_nolab l L : tnolab l (flat_map sbbI L) = true.
Proof. induction L as [|i L IH]; [reflexivity|]. cbn [flat_map sbbI app tnolab jnc]. exact IH. Qed.
Lemma t_test m1 code Q : 0 <= regs m1 RCX -> (forall f, zf f = (regs m1 RCX =? 0) -> tw code Q (setf m1 f, None)) -> tw (X (I Itest [OReg RCX; OReg RCX]) :: code) Q (m1, None).
Proof. intros H0 H. eapply tw_cons; [|apply (H {| cf := false; ovf := false; zf := Z.land (regs m1 RCX) (regs m1 RCX) =? 0 |})]. - reflexivity. - cbn [zf]. rewrite Z.land_diag. reflexivity. Qed.
Lemma t_zeroI rest Q k : forall i m1, (i + k <= n)%nat -> sameC m1 -> words m1 ->
  ((forall j, (i <= j < i + k)%nat -> bi j = 0) -> forall m2, sameC m2 -> words m2 -> tw rest Q (m2, None)) ->
  (forall j, (i <= j < i + k)%nat -> bi j <> 0 -> forall m2, sameC m2 -> words m2 -> tw rest Q (m2, Some 72%nat)) ->
  tw (flat_map zeroI (seq i k) ++ rest) Q (m1, None).
Proof.
  induction k as [|k IH]; intros i m1 Hi S1 W1 H1 H2; [cbn [seq flat_map app]; apply H1; [intros; lia|exact S1|exact W1]|].
  cbn [seq flat_map]. rewrite <- app_assoc. unfold zeroI at 1. cbn [app]. assert (Rb : 0 <= bi i < B) by apply W.
  eapply t_ldo; [apply cell; [exact S1|lia]|]. apply t_test; [cbn [setf setr regs]; rewrite rupd_eq; lia|]. cbn [setf setr regs]. rewrite rupd_eq. intros f Hf. set (m2 := setf _ f). assert (S2 : sameC m2) by (apply (sameC_set m1), S1). assert (W2 : words m2) by (apply (words_set m1); assumption). assert (Zf : zf (fl m2) = (bi i =? 0)) by exact Hf. clearbody m2.
  apply X86TRawShift.t_jnz; rewrite Zf; intros E.
  - apply Z.eqb_neq in E. apply (t_over lay ra); [apply zeroI_nolab|]. apply (H2 i); [lia|exact E|exact S2|exact W2].
  - apply Z.eqb_eq in E. apply IH; [lia|exact S2|exact W2| |].
    + intros A. apply H1. intros j Hj. destruct (Nat.eq_dec j i) as [->|Ne]; [exact E|apply A; lia].
    + intros j Hj. apply H2. lia.
Qed.
Lemma t_sbbI rest Q k : forall i m1, (i + k <= n)%nat -> sameC m1 -> words m1 -> cf (fl m1) = true ->
  ((forall j, (i <= j < i + k)%nat -> bi j <= qi j) -> forall m2, sameC m2 -> words m2 -> tw rest Q (m2, None)) ->
  (forall j, (i <= j < i + k)%nat -> qi j < bi j -> forall m2, sameC m2 -> words m2 -> tw rest Q (m2, Some 73%nat)) ->
  tw (flat_map sbbI (seq i k) ++ rest) Q (m1, None).
Proof.
  induction k as [|k IH]; intros i m1 Hi S1 W1 C1 H1 H2; [cbn [seq flat_map app]; apply H1; [intros; lia|exact S1|exact W1]|].
  cbn [seq flat_map]. rewrite <- app_assoc. unfold sbbI at 1. cbn [app]. assert (Rb : 0 <= bi i < B) by apply W.
  eapply t_ldo; [apply cell; [exact S1|lia]|]. eapply t_sbbo; [apply cellq; [apply (sameC_set m1), S1|lia]|]. cbn [setf setr regs X86.fl]. rewrite rupd_eq, C1. cbn [b2z]. intros f Hf _. set (m2 := setf _ f). assert (S2 : sameC m2) by (apply (sameC_set (setf (setr m1 RCX (bi i)) (fl m1))), (sameC_set m1), S1).
  assert (W2 : words m2) by (apply (words_set (setf (setr m1 RCX (bi i)) (fl m1))); [apply (words_set m1); assumption|apply Z.mod_pos_bound; reflexivity]). assert (Cf : cf (fl m2) = (bi i - qi i - 1 <? 0)) by exact Hf. clearbody m2.
  apply t_jnc; rewrite Cf; intros E.
  - apply Z.ltb_ge in E. apply (t_over lay ra); [apply sbbI_nolab|]. apply (H2 i); [lia|lia|exact S2|exact W2].
  - apply Z.ltb_lt in E. apply IH; [lia|exact S2|exact W2|rewrite Cf; apply Z.ltb_lt; lia| |].
    + intros A. apply H1. intros j Hj. destruct (Nat.eq_dec j i) as [->|Ne]; [lia|apply A; lia].
    + intros j Hj. apply H2. lia.
Qed.
End Chains.
Section Rules.
Variable lay : sym -> Z.
Variable ra : Z.
Lemma t_shri m d k code Q : (forall f, zf f = (regs m d / 2 ^ k =? 0) -> tw lay ra code Q (setf (setr m d (regs m d / 2 ^ k)) f, None)) -> tw lay ra (Sh (ShrI d k) :: code) Q (m, None).
Proof. intros H. eapply tw_cons; [reflexivity|]. apply H. reflexivity. Qed.
Lemma t_sari m d k code Q : (forall f, tw lay ra code Q (setf (setr m d (sx64 (regs m d) / 2 ^ k mod B)) f, None)) -> tw lay ra (Sh (SarI d k) :: code) Q (m, None).
Proof. intros H. eapply tw_cons; [reflexivity|]. apply H. Qed.
Lemma t_add1 m d code Q : (forall f, zf f = ((regs m d + 1) mod B =? 0) -> tw lay ra code Q (setf (setr m d ((regs m d + 1) mod B)) f, None)) -> tw lay ra (X (I Iadd [OReg d; OImm 1]) :: code) Q (m, None).
Proof. intros H. eapply tw_cons; [|eapply H]; [cbn; rewrite Z.add_0_r; reflexivity|reflexivity]. Qed.
End Rules.
Lemma sx32_B z : - 2 ^ 31 <= z < 2 ^ 31 -> sx32 (z mod B) = z.
Proof.
  intros H. assert (E : (z mod B) mod W32 = z mod W32). { change B with (W32 * 2 ^ 32). rewrite Z.rem_mul_r by (unfold W32; lia). rewrite Z.mul_comm, Z_mod_plus_full. apply Z.mod_mod. unfold W32; lia. }
  unfold sx32. rewrite E. change (let y := z mod W32 in if y <? 2 ^ 31 then y else y - W32) with (sx32 z). apply sx32_int. exact H.
Qed.
Section Int.
Variable q : Z.
Variable P : zq.
Hypothesis OK : zq_ok q P.
Notation n := (p_n64 P).
Notation opt := (p_opt P).
Notation sb := (stackBytes n opt).
Variable lay : sym -> Z.
Variable ra : Z.
Hypothesis Hra : 0 <= ra < B.
Variable m0 : mach.
Variable D : Z.
Hypothesis HD : sb + 8 * Z.of_nat (S n) + 160 <= D.
Hypothesis Rdy : xready P lay D m0.
Notation sp0 := (regs m0 RSP).
Notation N8 := (8 * Z.of_nat (S n)).
Notation bp := (sp0 - 24).
Lemma Opr0 : 0 + 8 * Z.of_nat 0 <= sp0 - D \/ sp0 + 8 <= 0. Proof. left. pose proof (xr_room _ _ _ _ Rdy). lia. Qed.
Lemma Dpr0 : forall s, lay s + 8 * Z.of_nat (length (data P s)) <= 0 \/ 0 + 8 * Z.of_nat 0 <= lay s.
Proof. intros s. right. destruct (xr_data _ _ _ _ Rdy s) as [(H & _) _]. lia. Qed.
Notation Inv := (Inv m0 D 0 0).
Notation St := (St m0 D 0 0).
Notation saved := (saved m0).
Notation tw := (tw lay ra).
Ltac inv1 := first [assumption | apply inv_setf | apply inv_setr; [|try lia|nin'] | apply (inv_stk m0 D 0 0 Opr0 Bpr0); [|try lia|try lia] ].
Ltac inv := repeat inv1.
Ltac stt H := let H1 := fresh in let H2 := fresh in let H3 := fresh in let H4 := fresh in pose proof H as (H1 & H2 & H3 & H4); split; [inv|split; [rg; try lia|split; [rg; try lia|rg; try lia]]].
Lemma D24 : 24 <= D. Proof. pose proof (sb_pos P). lia. Qed.
Definition FI (c p : Z) (m : mach) : Prop := St c p bp m /\ saved m.
Definition IRes (z : Z) (m' : mach) : Prop := sx32 (regs m' RAX) = z /\ xframe D 0 0 m0 m'.
Definition Res (z : Z) (s : X86RawFacts.st) : Prop := snd s = Some l_ret /\ regs (fst s) RSP = sp0 /\ mem (fst s) sp0 = mem m0 sp0 /\ IRes z (setr (fst s) RSP ((sp0 + 8) mod B)).
Lemma i_leave c p m rest Q : FI c p m -> (forall m', St 0 p (regs m0 RBP) m' -> regs m' RAX = regs m RAX -> tw (TRet :: rest) Q (m', None)) -> tw (leaveRet ++ rest) Q (m, None).
Proof.
  intros (ST & V1 & V2 & V3) H. pose proof D24. pose proof (xr_room _ _ _ _ Rdy) as RM. pose proof (sp0_top P lay m0 D Rdy) as TOP. pose proof (proj1 (xr_words _ _ _ _ Rdy)) as WR. pose proof (WR RSP). pose proof (WR RBP). pose proof (WR RSI). pose proof (WR RDX). pose proof ST as (_ & SP & DI & EB).
  pose proof (sp_al P lay m0 D Rdy 8 eq_refl) as A8. pose proof (sp_al P lay m0 D Rdy 16 eq_refl) as A16. pose proof (sp_al P lay m0 D Rdy 24 eq_refl) as A24.
  unfold leaveRet. cbn [app]. apply t_mov. rewrite EB. apply t_pop; [rg; exact A24|rg; lia|rg; lia|]. rg. rewrite V3. replace (sp0 - 24 + 8) with (sp0 - 16) by lia. apply t_pop; [rg; exact A16|rg; lia|rg; lia|]. rg. rewrite V2. replace (sp0 - 16 + 8) with (sp0 - 8) by lia. apply t_pop; [rg; exact A8|rg; lia|rg; lia|]. rg. rewrite V1. replace (sp0 - 8 + 8) with (sp0 - 0) by lia.
  apply H; [stt ST|rg; reflexivity].
Qed.
Lemma i_end z c p m rest : FI c p m -> sx32 (regs m RAX) = z -> tnolab l_ret rest = true -> tw (leaveRet ++ rest) (Res z) (m, None).
Proof.
  intros F E HL. pose proof (xr_room _ _ _ _ Rdy) as RM. pose proof D24. apply (i_leave c p m); [exact F|]. intros m' ((W & M & RI) & E1 & E2 & E3) A.
  apply t_ret; [exact HL|]. split; [reflexivity|]. cbn [fst snd]. split; [lia|]. split; [apply M; lia|]. split; [cbn [setr regs]; rewrite rupd_neq by discriminate; congruence|].
  pose proof B_pos. split; [apply words_setr; [exact W|apply Z.mod_pos_bound; lia]|]. split; [exact M|]. split; [|cbn [setr regs]; apply rupd_eq].
  intros r Hr. cbn [setr regs]. destruct (reg_dec r RSP) as [->|Nr]; [exfalso; unfold callee_saved in Hr; cbn [In] in Hr; intuition discriminate|]. rewrite rupd_neq by exact Nr. destruct (reg_dec r RBP) as [->|Nb]; [exact E3|]. apply RI. unfold callee_saved in Hr. cbn [In] in *. intuition congruence.
Qed.
Lemma fi_set c p m r v : FI c p m -> ~ In r [RSP; RDI; RBP; RBX; R12; R13; R14; R15] -> 0 <= v < B -> FI c p (setr m r v).
Proof.
  intros (ST & SV) Hr Hv. destruct ST as (I1 & S1 & S2 & S3). assert (NE : forall r', In r' [RSP; RDI; RBP; RBX; R12; R13; R14; R15] -> regs (setr m r v) r' = regs m r') by (intros r' H; cbn [setr regs]; apply rupd_neq; intros ->; contradiction).
  split; [|exact SV]. split; [|rewrite !NE by (cbn [In]; tauto); auto]. apply inv_setr; [exact I1|exact Hv|]. intros H. apply Hr. cbn [In] in *. tauto.
Qed.
Lemma fi_same c p m m2 : sameC m m2 -> words m2 -> FI c p m -> FI c p m2.
Proof.
  intros (M2 & R2) W2 (ST & SV). destruct ST as ((W & MI & RI) & S1 & S2 & S3). split.
  - split; [split; [exact W2|]; split|].
    + intros x H1 H2. rewrite M2. apply MI; assumption.
    + intros r Hr. rewrite R2; [apply RI, Hr|]. intros ->. cbn [In] in Hr. intuition discriminate.
    + rewrite !R2 by discriminate. auto.
  - destruct SV as (V1 & V3 & V4). split; [|split]; rewrite M2; assumption.
Qed.
Ltac nin8 := cbn [In]; intuition discriminate.
Section Body.
Variables (c p v : Z) (m : mach).
Hypothesis HF : FI c p m.
Hypothesis HH : hold P m p v.
Hypothesis Hv : 0 <= v < q.
Lemma Np : (1 <= n)%nat. Proof. apply (zk_n _ _ OK). Qed.
Lemma Wm : words m. Proof. apply HF. Qed.
Lemma Ep : regs m RDI = p. Proof. apply HF. Qed.
Lemma b_dig j : (j < n)%nat -> mem m (p + 8 + 8 * Z.of_nat j) = v / B ^ Z.of_nat j mod B.
Proof. intros Hj. destruct HH as (_ & _ & E). rewrite <- E. unfold vals. symmetry. apply (es_digit (fun j => mem m (p + 8 + 8 * Z.of_nat j))); [intros; apply Wm|exact Hj]. Qed.
Lemma qd : X86RawFacts.ptr (lay Sq) n /\ vals m (lay Sq) n = q.
Proof.
  destruct HF as ((I1 & _) & _). pose proof (data_at P lay m0 D Rdy 0 0 Opr0 Dpr0 Bpr0 0 m Sq ltac:(lia) I1) as A. destruct (at_vals _ _ _ _ (q_ok q P OK) A) as [H3 H4]. split; [exact H3|]. cbn [data] in H4. rewrite (q_eval q P OK) in H4. exact H4.
Qed.
Lemma q_dig j : (j < n)%nat -> mem m (lay Sq + 8 * Z.of_nat j) = q / B ^ Z.of_nat j mod B.
Proof. intros Hj. rewrite <- (proj2 qd). unfold vals. symmetry. apply (es_digit (fun j => mem m (lay Sq + 8 * Z.of_nat j))); [intros; apply Wm|exact Hj]. Qed.
Lemma b0_eq : mem m (p + 8) = v mod B. Proof. pose proof (b_dig 0 Np) as E. cbn [Z.of_nat] in E. rewrite Z.mul_0_r, Z.add_0_r, Z.pow_0_r, Z.div_1_r in E. exact E. Qed.
Lemma q0_eq : mem m (lay Sq + 8 * Z.of_nat 0) = q mod B. Proof. pose proof (q_dig 0 Np) as E. cbn [Z.of_nat] in E |- *. rewrite Z.pow_0_r, Z.div_1_r in E. exact E. Qed.
Lemma ld8 r code Q : tw code Q (setr m r (v mod B), None) -> tw (ld r RDI 8 :: code) Q (m, None).
Proof.
  intros H. destruct HH as (Zp & (P1 & P2 & P3) & _). pose proof Np. apply (t_ld lay ra m r RDI 8 (p + 8)); [rewrite Ep; apply Z.mod_small; lia|exact P2|]. rewrite b0_eq. exact H.
Qed.
Lemma vB : 0 <= v mod B < B. Proof. apply Z.mod_pos_bound. reflexivity. Qed.
(** longNormal *)
Lemma N_norm rest : v < 2 ^ 31 -> tnolab l_ret rest = true -> tw (iNorm n ++ rest) (Res v) (m, None).
Proof.
  intros V HL. pose proof vB as VB. assert (2 ^ 31 < B) by reflexivity. assert (EV : v mod B = v) by (apply Z.mod_small; lia). unfold iNorm. rewrite <- !app_assoc. cbn [app]. apply ld8. rewrite EV in *. apply t_mov. cbn [setr regs]. rewrite rupd_eq. apply t_shri. cbn [setr regs]. rewrite rupd_eq, Z.div_small by lia. intros f Hf.
  set (m1 := setf _ f). assert (F1 : FI c p m1) by (apply (fi_set c p _ RCX 0); [apply fi_set; [apply fi_set; [exact HF|nin8|lia]|nin8|lia]|nin8|lia]). assert (M1 : mem m1 = mem m) by reflexivity. assert (A1 : regs m1 RAX = v) by (unfold m1; rg; reflexivity). assert (Z1 : zf (fl m1) = true) by exact Hf. clearbody m1.
  apply X86TRawShift.t_jnz; rewrite Z1; intros E; [discriminate|]. destruct HH as (Zp & Pp & _). pose proof Np.
  apply (t_zeroI lay ra p n Pp Zp m1 (proj1 (proj1 (proj1 F1))) (proj1 (proj2 (proj2 (proj1 F1)))) _ _ (n - 1) 1); [lia|apply sameC_refl|apply F1| |].
  - intros _ m2 S2 W2. apply (i_end v c p); [exact (fi_same c p m1 m2 S2 W2 F1)| |exact HL]. rewrite (proj2 S2), A1 by discriminate. apply sx32_int. unfold is_int32. lia.
  - rewrite M1. intros j Hj Nz. exfalso. apply Nz. rewrite b_dig by lia. rewrite Z.div_small; [reflexivity|]. split; [lia|]. assert (B ^ 1 <= B ^ Z.of_nat j) by (apply Z.pow_le_mono_r; lia). rewrite Z.pow_1_r in *. lia.
Qed.
Lemma N_big rest Q : 2 ^ 31 <= v -> (forall m', FI c p m' -> mem m' = mem m -> tw rest Q (m', Some 72%nat)) -> tw (iNorm n ++ rest) Q (m, None).
Proof.
  intros V H. pose proof vB as VB. unfold iNorm. rewrite <- !app_assoc. cbn [app]. apply ld8. apply t_mov. cbn [setr regs]. rewrite rupd_eq. apply t_shri. cbn [setr regs]. rewrite rupd_eq. intros f Hf.
  assert (V31 : 0 <= v mod B / 2 ^ 31 < B) by (split; [apply Z.div_pos; lia|apply Z.div_lt_upper_bound; lia]).
  set (m1 := setf _ f). assert (F1 : FI c p m1) by (apply (fi_set c p _ RCX (v mod B / 2 ^ 31)); [apply fi_set; [apply fi_set; [exact HF|nin8|lia]|nin8|lia]|nin8|lia]). assert (M1 : mem m1 = mem m) by reflexivity. assert (Z1 : zf (fl m1) = (v mod B / 2 ^ 31 =? 0)) by exact Hf. clearbody m1.
  assert (SK : forall m', FI c p m' -> mem m' = mem m -> tw (leaveRet ++ rest) Q (m', Some 72%nat)) by (intros m' F' M'; apply (t_over lay ra); [reflexivity|apply H; assumption]).
  apply X86TRawShift.t_jnz; rewrite Z1; intros E; [apply (t_over lay ra); [apply zeroI_nolab|]; apply SK; assumption|]. apply Z.eqb_eq in E. destruct HH as (Zp & Pp & Ev). pose proof Np.
  apply (t_zeroI lay ra p n Pp Zp m1 (proj1 (proj1 (proj1 F1))) (proj1 (proj2 (proj2 (proj1 F1)))) _ _ (n - 1) 1); [lia|apply sameC_refl|apply F1| |].
  - rewrite M1. intros A m2 S2 W2. exfalso. assert (LO : v mod B < 2 ^ 31) by (destruct (Z.lt_ge_cases (v mod B) (2 ^ 31)) as [L|L]; [exact L|]; assert (1 <= v mod B / 2 ^ 31) by (apply Z.div_le_lower_bound; lia); lia).
    assert (v = v mod B); [|lia]. rewrite <- Ev at 1. unfold vals. replace n with (1 + (n - 1))%nat at 1 by lia. rewrite es_split. replace (es (fun j => mem m (p + 8 + 8 * Z.of_nat (1 + j))) (n - 1)) with 0.
    + cbn [es]. cbn [Z.of_nat]. rewrite !Z.mul_0_r, !Z.add_0_r, Z.pow_0_r, Z.mul_1_r, b0_eq. reflexivity.
    + symmetry. transitivity (es (fun _ : nat => 0) (n - 1)); [apply es_ext; intros j Hj; apply A; lia|]. clear. induction (n - 1)%nat as [|k IH]; cbn [es]; lia.
  - intros j Hj _ m2 S2 W2. apply SK; [exact (fi_same c p m1 m2 S2 W2 F1)|rewrite (proj1 S2); exact M1].
Qed.
(** longNeg *)
Lemma sar_one d : 0 < d < B -> (sx64 (B - d) / 2 ^ 31 mod B + 1) mod B = 0 <-> d <= 2 ^ 31.
Proof.
  intros Hd. assert (B2 : B / 2 = 2 ^ 63) by reflexivity. assert (BB : B = 2 ^ 64) by reflexivity. unfold sx64. rewrite B2. rewrite Zplus_mod_idemp_l. destruct (Z.ltb_spec (B - d) (2 ^ 63)) as [H|H].
  - assert (0 <= (B - d) / 2 ^ 31 < 2 ^ 33) by (split; [apply Z.div_pos; lia|apply Z.div_lt_upper_bound; lia]). rewrite Z.mod_small by lia. lia.
  - replace (B - d - B) with (- d) by lia. assert (R : - 2 ^ 33 <= - d / 2 ^ 31 < 0) by (split; [apply Z.div_le_lower_bound; lia|apply Z.div_lt_upper_bound; lia]). split; intros E.
    + destruct (Z.eq_dec (- d / 2 ^ 31 + 1) 0) as [E1|E1]; [|rewrite <- (Z.mod_add _ 1), Z.mod_small in E by lia; lia]. assert (E2 : - d / 2 ^ 31 = -1) by lia. pose proof (Z.mul_div_le (- d) (2 ^ 31) ltac:(lia)). lia.
    + assert (E2 : -1 <= - d / 2 ^ 31) by (apply Z.div_le_lower_bound; lia). replace (- d / 2 ^ 31 + 1) with 0 by lia. reflexivity.
Qed.
(** the first subtraction *)
Lemma neg_first code Q : (q mod B <= v mod B -> forall m', FI c p m' -> tw code Q (m', Some 73%nat)) ->
  (v mod B < q mod B -> forall m', FI c p m' -> mem m' = mem m -> regs m' RAX = B - (q mod B - v mod B) -> cf (fl m') = true -> tw code Q (m', None)) ->
  tw ([ld RAX RDI 8; X (I Isub [OReg RAX; q8 0]); jnc 73] ++ code) Q (m, None).
Proof.
  intros H1 H2. pose proof vB as VB. assert (QB : 0 <= q mod B < B) by (apply Z.mod_pos_bound; reflexivity). cbn [app]. apply ld8. eapply t_subo; [apply (q_cell lay n (proj1 qd) _ 0 Np)|cbn [setr regs]; rewrite rupd_eq; exact VB|cbn [setr mem]; rewrite q0_eq; exact QB|]. cbn [setr regs mem]. rewrite rupd_eq, q0_eq. intros f Hf.
  assert (SB : 0 <= (v mod B - q mod B) mod B < B) by (apply Z.mod_pos_bound; reflexivity).
  set (m1 := setf _ f). assert (F1 : FI c p m1) by (apply (fi_set c p _ RAX ((v mod B - q mod B) mod B)); [apply fi_set; [exact HF|nin8|lia]|nin8|lia]). assert (M1 : mem m1 = mem m) by reflexivity. assert (A1 : regs m1 RAX = (v mod B - q mod B) mod B) by (unfold m1; rg; reflexivity). assert (Z1 : cf (fl m1) = (v mod B <? q mod B)) by exact Hf. clearbody m1.
  apply t_jnc; rewrite Z1; intros E; [apply Z.ltb_ge in E; apply H1; assumption|]. assert (E' := E). apply Z.ltb_lt in E. apply H2; [exact E|exact F1|exact M1| |rewrite Z1; exact E'].
  rewrite A1, <- (Z.mod_add _ 1), Z.mod_small by lia. lia.
Qed.
(** the last check *)
Lemma neg_last d m1 code Q : FI c p m1 -> regs m1 RAX = B - d -> 0 < d < B -> (2 ^ 31 < d -> forall m', FI c p m' -> tw code Q (m', Some 73%nat)) -> (d <= 2 ^ 31 -> forall m', FI c p m' -> regs m' RAX = B - d -> tw code Q (m', None)) ->
  tw ([mov RCX RAX; Sh (SarI RCX 31); X (I Iadd [OReg RCX; OImm 1]); jnz 73] ++ code) Q (m1, None).
Proof.
  intros F A Hd H1 H2. cbn [app]. apply t_mov. rewrite A. apply t_sari. cbn [setr regs]. rewrite rupd_eq. intros f. apply t_add1. cbn [setf setr regs]. rewrite rupd_eq. intros f2 Hf. set (y := sx64 (B - d) / 2 ^ 31 mod B) in *.
  assert (YB : 0 <= y < B) by (apply Z.mod_pos_bound; reflexivity). assert (YB' : 0 <= (y + 1) mod B < B) by (apply Z.mod_pos_bound; reflexivity).
  set (m2 := setf _ f2). assert (F2 : FI c p m2) by (apply (fi_set c p _ RCX ((y + 1) mod B)); [apply (fi_set c p _ RCX y); [apply fi_set; [exact F|nin8|lia]|nin8|exact YB]|nin8|exact YB']). assert (A2 : regs m2 RAX = B - d) by (unfold m2; rg; exact A). assert (Z2 : zf (fl m2) = ((y + 1) mod B =? 0)) by exact Hf. clearbody m2.
  pose proof (sar_one d Hd) as SO. fold y in SO. apply X86TRawShift.t_jnz; rewrite Z2; intros E; [apply Z.eqb_neq in E; apply H1; [lia|exact F2]|apply Z.eqb_eq in E; apply H2; [tauto|exact F2|exact A2]].
Qed.
Lemma N_neg z rest : - 2 ^ 31 <= z < 0 -> v = q + z -> - z <= q mod B -> tnolab l_ret rest = true -> tw (iNeg n ++ rest) (Res z) (m, None).
Proof.
  intros Hz EV L0 HL. pose proof vB as VB. assert (QB : 0 <= q mod B < B) by (apply Z.mod_pos_bound; reflexivity). pose proof Np. assert (BB : 2 ^ 31 < B) by reflexivity.
  assert (V0 : v mod B = q mod B + z) by (rewrite EV, <- Zplus_mod_idemp_l; apply Z.mod_small; lia).
  unfold iNeg. rewrite <- !app_assoc. apply neg_first; [lia|]. intros _ m1 F1 M1 A1 C1. destruct HH as (Zp & Pp & _).
  apply (t_sbbI lay ra p n Pp Zp (proj1 qd) m1 (proj1 (proj1 (proj1 F1))) (proj1 (proj2 (proj2 (proj1 F1)))) _ _ (n - 1) 1); [lia|apply sameC_refl|apply F1|exact C1| |].
  - intros _ m2 S2 W2. apply (neg_last (- z)); [exact (fi_same c p m1 m2 S2 W2 F1)|rewrite (proj2 S2), A1 by discriminate; lia|lia|lia|]. intros _ m3 F3 A3. apply (i_end z c p); [exact F3| |exact HL]. rewrite A3. transitivity (sx32 (z mod B)); [f_equal|apply sx32_B; lia]. rewrite <- (Z.mod_add z 1), Z.mod_small by lia. lia.
  - rewrite M1. intros j Hj G. exfalso. rewrite b_dig, q_dig in G by lia. enough (EQ : v / B ^ Z.of_nat j = q / B ^ Z.of_nat j) by (rewrite EQ in G; lia). set (W := B ^ Z.of_nat j) in *. assert (WP : 0 < W) by (apply Z.pow_pos_nonneg; [reflexivity|lia]).
    assert (WB : exists w, 0 < w /\ W = B * w) by (exists (B ^ (Z.of_nat j - 1)); split; [apply Z.pow_pos_nonneg; [reflexivity|lia]|unfold W; rewrite <- Z.pow_succ_r by lia; f_equal; lia]). destruct WB as (w & Hw & EW).
    assert (QW : q mod B <= q mod W). { rewrite EW, Z.rem_mul_r by lia. pose proof (Z.mod_pos_bound (q / B) w Hw). nia. }
    pose proof (Z.div_mod q W ltac:(lia)) as DM. pose proof (Z.mod_pos_bound q W WP) as MB. symmetry. apply (Z.div_unique v W (q / W) (q mod W + z)); lia.
Qed.
Lemma N_err rest Q : ((q - v) mod B = 0 \/ 2 ^ 31 < (q - v) mod B) -> (forall m', FI c p m' -> tw rest Q (m', Some 73%nat)) -> tw (iNeg n ++ rest) Q (m, None).
Proof.
  intros Hr H. pose proof vB as VB. assert (QB : 0 <= q mod B < B) by (apply Z.mod_pos_bound; reflexivity). pose proof Np. assert (ER : (q - v) mod B = (q mod B - v mod B) mod B) by apply Zminus_mod.
  unfold iNeg. rewrite <- !app_assoc. assert (SK : forall m', FI c p m' -> tw (leaveRet ++ rest) Q (m', Some 73%nat)) by (intros m' F'; apply (t_over lay ra); [reflexivity|apply H; exact F']).
  apply neg_first.
  - intros _ m1 F1. apply (t_over lay ra); [apply sbbI_nolab|]. apply (t_over lay ra); [reflexivity|]. apply SK, F1.
  - intros L m1 F1 M1 A1 C1. destruct HH as (Zp & Pp & _). rewrite (Z.mod_small (q mod B - v mod B)) in ER by lia.
    apply (t_sbbI lay ra p n Pp Zp (proj1 qd) m1 (proj1 (proj1 (proj1 F1))) (proj1 (proj2 (proj2 (proj1 F1)))) _ _ (n - 1) 1); [lia|apply sameC_refl|apply F1|exact C1| |].
    + intros _ m2 S2 W2. apply (neg_last (q mod B - v mod B)); [exact (fi_same c p m1 m2 S2 W2 F1)|rewrite (proj2 S2), A1 by discriminate; lia|lia| |lia]. intros _ m3 F3. apply SK, F3.
    + intros j Hj _ m2 S2 W2. apply (t_over lay ra); [reflexivity|]. apply SK. exact (fi_same c p m1 m2 S2 W2 F1).
Qed.
End Body.
(** *** the call of Fr_fail *)
Lemma err_ret c p m : 24 <= c -> c + 16 <= D -> c mod 8 = 0 -> FI c p m -> tw (iErr fail_returns) (fun s => exists z, Res z s) (m, None).
Proof.
  intros C1 C2 C3 (ST & SV). pose proof ST as (I0 & SP & ED & EB). pose proof (xr_room _ _ _ _ Rdy) as RM. pose proof (sp0_top P lay m0 D Rdy) as TOP. pose proof (proj1 (xr_words _ _ _ _ Rdy) RSP) as RR. pose proof (proj1 (proj1 I0) RDI) as R2.
  pose proof (sp_al P lay m0 D Rdy c C3) as A0. assert (A8 : (sp0 - c - 8) mod 8 = 0) by (replace (sp0 - c - 8) with (sp0 - c + (-1) * 8) by lia; rewrite Z.mod_add by lia; exact A0).
  unfold iErr. cbn [app]. apply t_push; [rewrite SP; exact A0|rewrite SP; lia|]. rewrite SP, ED. apply t_movi. eapply t_callf; [rg; exact A8|rg; lia|reflexivity|]. unfold pushed. rg. rewrite (Z.mod_small (sp0 - c - 8 - 8 + 8)) by lia. replace (sp0 - c - 8 - 8 + 8) with (sp0 - c - 8) by lia.
  apply t_pop; [rg; exact A8|rg; lia|rg; lia|]. rg. rewrite (mupd_neq _ (sp0 - c - 8 - 8)) by lia. rewrite mupd_eq. replace (sp0 - c - 8 + 8) with (sp0 - c) by lia.
  match goal with |- tw _ _ (?M, _) => set (m3 := M) end. eapply (tw_mono lay ra leaveRet (Res (sx32 (regs m3 RAX)))); [intros s Hs; eexists; exact Hs|]. rewrite <- (app_nil_r leaveRet).
  apply (i_end _ c p); [|reflexivity|reflexivity]. unfold m3. split; [stt ST|]. destruct SV as (V1 & V2 & V3). split; [|split]; rg; rewrite !mupd_neq by lia; assumption.
Qed.
(** *** the conversion *)
Section Elt.
Hypothesis N12 : neededFor n opt <> 12%nat.
Hypothesis N7 : n <> 7%nat.
Variables (p s t : Z) (l : list Z) (v : Z).
Hypothesis F : xfields n m0 p s t l.
Hypothesis V : denotes q n s t l v.
Hypothesis O : xoff D m0 p (S n).
Hypothesis T : tlong t = true.
Notation f := (f_toNormal lay ra n opt).
Notation tmp := (sp0 - (32 + N8)).
Lemma fields_at m : Inv m -> xfields n m p s t l.
Proof.
  intros I1. destruct F as (F1 & F2 & F3). split; [exact F1|]. split; [exact F2|]. apply (user_at m0 D 0 0 Opr0 Bpr0 0 m p); [exact I1|exact F3|cbn [length]; rewrite (proj1 F2); exact O|right; destruct F3 as (H & _); lia].
Qed.
Lemma N8a : N8 mod 8 = 0. Proof. rewrite Z.mul_comm. apply Z.mod_mul. lia. Qed.
Lemma sp_alN c : c mod 8 = 0 -> (sp0 - (c + N8)) mod 8 = 0.
Proof. intros H1. apply (sp_al P lay m0 D Rdy). rewrite Z.add_mod, H1, N8a by lia. reflexivity. Qed.
Lemma call_r m2 : St (32 + N8) tmp bp m2 -> regs m2 RSI = p ->
  exists m' L, f (pushed ra m2) = Some m' /\ RSx P v L /\ at_addr m' tmp L /\ St (32 + N8) tmp bp m' /\ (forall x, sp0 - 24 <= x < sp0 + 8 -> mem m' x = mem m2 x).
Proof.
  intros ST2 E2. pose proof ST2 as (I2 & SP2 & DI2 & BP2). pose proof (xr_room _ _ _ _ Rdy) as RM. pose proof (sp0_top P lay m0 D Rdy) as TOP. pose proof N8a as NA. pose proof (proj1 (xr_words _ _ _ _ Rdy) RSP) as RR. pose proof (sb_pos P) as SBP. set (D' := D - (40 + N8)).
  assert (AL : (sp0 - (40 + N8)) mod 8 = 0) by (apply sp_alN; reflexivity).
  assert (AT : tmp mod 8 = 0) by (apply sp_alN; reflexivity).
  assert (IP : Inv (pushed ra m2)) by (unfold pushed; inv).
  assert (RP : regs (pushed ra m2) RSP = sp0 - (40 + N8)) by (unfold pushed; rg; lia).
  assert (HD' : 8 + sb <= D') by (unfold D'; lia).
  destruct (cv_norm q P OK lay ra Hra _ (Z.le_refl _) N12 N7 p s t l v V T (pushed ra m2) D' tmp) as (m' & L & E & HL & A & (W & M & CS & SP') & DI').
  - exact HD'.
  - apply (ready_at P lay m0 D Rdy 0 0 Opr0 Dpr0 Bpr0 0); [lia|exact IP|rewrite RP; exact AL|lia|rewrite RP; unfold D'; lia|rewrite RP; lia].
  - split; [lia|exact AT|lia|right; rewrite RP; lia|]. intros sy. destruct (xr_data _ _ _ _ Rdy sy) as [_ Os]. unfold xoff in Os. lia.
  - apply fields_at, IP.
  - unfold xoff in *. rewrite RP. unfold D'. lia.
  - right. unfold xapart, xoff in *. lia.
  - unfold pushed. rg. exact DI2.
  - unfold pushed. rg. exact E2.
  - rewrite RP in M, SP'. exists m', L. split; [exact E|]. split; [exact HL|]. split; [exact A|].
    assert (MM : forall x, ~ (sp0 - D <= x < tmp + N8) -> mem m' x = mem m2 x).
    { intros x H1. rewrite M; [|lia|unfold D' in *; lia]. unfold pushed. rg. apply mupd_neq. lia. }
    split; [|intros x Hx; apply MM; lia].
    split; [|split; [rewrite SP', Z.mod_small by lia; lia|split; [rewrite DI'; unfold pushed; rg; exact DI2|rewrite CS by (unfold callee_saved; cbn [In]; tauto); unfold pushed; rg; exact BP2]]].
    destruct I2 as (W2 & MI & RI). split; [exact W|]. split.
    + intros x H1 H2. rewrite MM by lia. apply MI; assumption.
    + intros r Hr. rewrite CS by (unfold callee_saved; cbn [In] in *; tauto). unfold pushed. cbn [setr setm regs]. rewrite rupd_neq by (cbn [In] in Hr; intuition (subst; discriminate)). apply RI, Hr.
Qed.
Lemma t_conv_r m rest Q : FI 24 p m -> (forall m', FI (24 + N8) tmp m' -> hold P m' tmp v -> tw rest Q (m', None)) -> tw (conv_r n f ++ rest) Q (m, None).
Proof.
  intros (ST & SV) H. pose proof ST as (I0 & SP & ED & EB). pose proof (xr_room _ _ _ _ Rdy) as RM. pose proof (sp0_top P lay m0 D Rdy) as TOP. pose proof N8a as NA. pose proof (proj1 (xr_words _ _ _ _ Rdy) RSP) as RR. pose proof (sb_pos P) as SBP. pose proof (proj1 (proj1 I0) RSI) as R1. pose proof (proj1 (proj1 I0) RDI) as R2.
  assert (AT : tmp mod 8 = 0) by (apply sp_alN; reflexivity). assert (A8 : (tmp + 8) mod 8 = 0) by (rewrite Z.add_mod, AT by lia; reflexivity).
  unfold conv_r. cbn [app]. apply t_subi; [rewrite SP; lia|]. intros f1. rg. rewrite SP. replace (sp0 - 24 - Z.of_nat (n + 1) * 8) with (tmp + 8) by lia. apply t_push; [rg; exact A8|rg; lia|]. rg. replace (tmp + 8 - 8) with tmp by lia. apply t_mov. rg. rewrite ED. apply t_mov. rg.
  set (m2 := setr (setr _ RSI p) RDI tmp).
  assert (ST2 : St (32 + N8) tmp bp m2) by (unfold m2; stt ST).
  destruct (call_r m2 ST2) as (m' & L & E' & HL & A & ST' & M1); [unfold m2; rg; reflexivity|].
  eapply t_callf; [destruct ST2 as (_ & -> & _); exact AT|destruct ST2 as (_ & -> & _); lia|exact E'|].
  pose proof ST' as (I' & SP' & DI' & _). pose proof (proj2 (proj1 I') tmp) as MR.
  apply t_pop; [rewrite SP'; exact AT|lia|lia|]. rewrite SP'. replace (tmp + 8) with (sp0 - (24 + N8)) by lia.
  apply H.
  - split; [stt ST'|]. destruct SV as (V1 & V2 & V3). split; [|split]; rg; rewrite M1 by lia; unfold m2; rg; rewrite mupd_neq by lia; assumption.
  - destruct HL as (w & l' & -> & L1 & L2). rewrite <- L2. apply (hold_of P _ tmp w l' L1). eapply at_ext; [|exact A]. intros; reflexivity.
Qed.
Lemma v_rng : 0 <= v < q. Proof. exact (v_range q P s t l v V). Qed.
(** *** the code after the tag has been found long *)
Hypothesis Edi : regs m0 RDI = p.
Hypothesis EA : regs m0 RAX = word_of s t.
Lemma long_hold m c : FI c p m -> tmont t = false -> hold P m p v.
Proof.
  intros (( I1 & _) & _) M. pose proof (fields_at m I1) as (F1 & F2 & F3). rewrite <- (v_long q P m0 p s t l v F V T M). exact (hold_of P _ _ _ _ F2 F3).
Qed.
Lemma i_long rest Q : (forall c p' m, (c = 24 \/ c = 24 + N8) -> FI c p' m -> hold P m p' v -> tw (iNorm n ++ [lab 72] ++ iNeg n ++ rest) Q (m, None)) -> tw (iLong lay ra n opt ++ rest) Q (m0, None).
Proof.
  intros H. unfold iLong. rewrite <- !app_assoc. pose proof (e_type q P s t l v V) as TY. apply (b_enter P lay ra m0 D Rdy 0 0 Opr0 Bpr0 D24). intros m ST SV KR _. rewrite Edi in ST. cbn [app].
  assert (RA : regs m RAX = word_of s t) by (rewrite KR by discriminate; exact EA).
  apply t_btnc; rewrite RA, word_62 by exact TY; intros f1 M.
  - apply (t_over lay ra); [reflexivity|]. cbn [app]. apply t_hit. apply (H 24 p); [left; reflexivity|split; assumption|]. apply (long_hold (setf m f1) 24); [split; assumption|exact M].
  - apply t_conv_r; [split; assumption|]. intros m' F' H'. cbn [app]. apply t_lab. apply (H (24 + N8) tmp); [right; reflexivity|exact F'|exact H'].
Qed.
Lemma I_ret z rest : - 2 ^ 31 <= z < 2 ^ 31 -> v = z mod q -> - z <= q mod B -> 2 ^ 32 < q -> tnolab l_ret rest = true -> tnolab l_ret (iNeg n ++ rest) = true -> tw (iLong lay ra n opt ++ rest) (Res z) (m0, None).
Proof.
  intros Hz Ev L0 HQ HL HL2. apply i_long. intros c p' m Hc FI' H'. pose proof v_rng as RV. destruct (Z.lt_ge_cases z 0) as [N|N].
  - assert (EV : v = q + z) by (rewrite Ev, <- (Z.mod_add z 1), Z.mod_small by lia; lia). apply (N_big c p' v m FI' H' RV); [lia|]. intros m' F2 M2. cbn [app]. apply t_hit. apply (N_neg c p' v m' F2); [|exact RV|lia|exact EV|exact L0|exact HL]. apply (hold_ext P m); assumption.
  - rewrite Z.mod_small in Ev by lia. subst z. apply (N_norm c p' v m FI' H' RV); [lia|exact HL2].
Qed.
Lemma I_err : 2 ^ 31 <= v -> ((q - v) mod B = 0 \/ 2 ^ 31 < (q - v) mod B) -> tw (iLong lay ra n opt) (fun s => exists c p' m', s = (m', Some 73%nat) /\ (c = 24 \/ c = 24 + N8) /\ FI c p' m') (m0, None).
Proof.
  intros Hv Hr. rewrite <- (app_nil_r (iLong lay ra n opt)). apply i_long. intros c p' m Hc FI' H'. pose proof v_rng as RV. apply (N_big c p' v m FI' H' RV); [exact Hv|]. intros m' F2 M2. cbn [app]. apply t_hit.
  apply (N_err c p' v m' F2); [|exact RV|exact Hr|]; [apply (hold_ext P m); assumption|]. intros m3 F3. apply tw_nil. exists c, p', m3. auto.
Qed.
End Elt.
End Int.
