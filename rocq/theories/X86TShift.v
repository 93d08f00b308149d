(** The tagged shifts shl and shr on the machine. *)
From Coq Require Import ZArith Znumtheory List Bool Arith Lia.
From Verif Require Import Limbs LimbsFacts Gen GenFacts Spec Raw RawFacts Fr FrSpec X86 X86Gen X86Sim X86Mont X86Call X86Routines X86Raw X86RawFacts X86RawFacts2 X86RawFacts3 X86Final X86T X86TWords X86TFacts X86THelp X86THelp2 X86THelp3 X86TSpec X86TInv X86TConv X86TFrame X86TLoop X86TBitLoop X86TShiftVal X86TCmp X86TRawShift.
Import ListNotations.
Open Scope Z_scope.

(** *** rules *)
Section Rules.
Variable lay : sym -> Z.
Variable ra : Z.
Notation tw := (tw lay ra).
Lemma t_ldo m d o v code Q : rd lay m o = Some v -> tw code Q (setf (setr m d v) (fl m), None) -> tw (X (I Imov [OReg d; o]) :: code) Q (m, None).
Proof. intros E H. eapply tw_cons; [|exact H]. cbn [tstep step]. unfold exec. cbn [encodable is_reg is_mem orb andb negb rds]. rewrite E. reflexivity. Qed.
Lemma t_subo m d o v code Q : rd lay m o = Some v -> 0 <= regs m d < B -> 0 <= v < B -> (forall f, cf f = (regs m d <? v) -> tw code Q (setf (setr m d ((regs m d - v) mod B)) f, None)) -> tw (X (I Isub [OReg d; o]) :: code) Q (m, None).
Proof.
  intros E H1 H2 H. eapply tw_cons; [|apply H]; cycle 1; [|cbn [tstep step]; unfold exec; cbn [encodable is_reg is_mem orb andb negb rds]; rewrite E; cbn [rd sem]; unfold subf; cbn [wrs wr]; rewrite Z.sub_0_r; reflexivity].
  cbn [cf]. destruct (Z.ltb_spec (regs m d - v) 0), (Z.ltb_spec (regs m d) v); try reflexivity; lia.
Qed.
Lemma t_sbbo m d o v code Q : rd lay m o = Some v -> (forall f, cf f = (regs m d - v - b2z (cf (fl m)) <? 0) -> zf f = ((regs m d - v - b2z (cf (fl m))) mod B =? 0) -> tw code Q (setf (setr m d ((regs m d - v - b2z (cf (fl m))) mod B)) f, None)) -> tw (X (I Isbb [OReg d; o]) :: code) Q (m, None).
Proof.
  intros E H. eapply tw_cons; [|apply H]; [cbn [tstep step]; unfold exec; cbn [encodable is_reg is_mem orb andb negb rds]; rewrite E; cbn [rd sem]; unfold subf; cbn [wrs wr]; reflexivity|reflexivity|reflexivity].
Qed.
Lemma t_cmpo m o v r code Q : is_mem o = true -> rd lay m o = Some v -> 0 <= v < B -> 0 <= regs m r < B -> (forall f, zf f = (v =? regs m r) -> tw code Q (setf m f, None)) -> tw (X (I Icmp [o; OReg r]) :: code) Q (m, None).
Proof.
  intros M E H1 H2 H. destruct o; try discriminate M. eapply tw_cons; [|apply H]; cycle 1; [|cbn [tstep step]; unfold exec; cbn [encodable is_reg is_mem orb andb negb rds]; rewrite E; cbn [rd sem]; unfold subf; cbn [wrs wr]; reflexivity].
  cbn [zf]. apply eq_mod; assumption.
Qed.
Lemma rd_at8 m r p i a : regs m r = p -> a = p + 8 * Z.of_nat i -> 0 <= a < B -> a mod 8 = 0 -> rd lay m (at8 r i) = Some (mem m a).
Proof. intros E Ea Ha H8. apply rd_loc. split; [|exact H8]. unfold addr. rewrite E. replace (p + Z.of_nat i * 8) with a by lia. apply Z.mod_small, Ha. Qed.
Lemma rd_q8 m i a : a = lay Sq + 8 * Z.of_nat i -> 0 <= a < B -> a mod 8 = 0 -> rd lay m (q8 i) = Some (mem m a).
Proof. intros Ea Ha H8. apply rd_loc. split; [|exact H8]. unfold addr. replace (lay Sq + Z.of_nat i * 8) with a by lia. apply Z.mod_small, Ha. Qed.
Lemma t_neg32 m d code Q : (forall f, tw code Q (setf (setr m d ((- sx32 (regs m d)) mod W32)) f, None)) -> tw (Neg32 d :: code) Q (m, None).
Proof. intros H. eapply tw_cons; [reflexivity|apply H]. Qed.
Lemma t_movcl m code Q : tw code Q (setr m RCX (regs m RCX - regs m RCX mod 256 + regs m RDX mod 256), None) -> tw (Sh MovClDl :: code) Q (m, None).
Proof. intros H. eapply tw_cons; [|exact H]. cbn [tstep texec exec_sh]. unfold setb0. reflexivity. Qed.
(** shifts by a count below 64, 0 included *)
Lemma t_sh0 l m d c code Q : regs m RCX mod 256 = c -> 0 <= c < 64 -> 0 <= regs m d < B -> (forall m2, mem m2 = mem m -> (forall r, r <> d -> regs m2 r = regs m r) -> regs m2 d = sval l (regs m d) c -> tw code Q (m2, None)) -> tw (Sh (if l then ShlCl d else ShrCl d) :: code) Q (m, None).
Proof.
  intros E Hc Hd H. destruct (Z.eq_dec c 0) as [->|N].
  - eapply tw_cons; [|apply (H m); [reflexivity|reflexivity|]]; [destruct l; cbn [tstep texec exec_sh]; rewrite E; reflexivity|]. unfold sval. rewrite Z.pow_0_r, Z.mul_1_r, Z.div_1_r, Z.mod_small by exact Hd. destruct l; reflexivity.
  - destruct l; [apply t_shlCl with c|apply t_shrCl with c]; try exact E; try lia; intros f; apply H; try reflexivity; try (intros r Hr; cbn [setf setr regs]; apply rupd_neq, Hr); cbn [setf setr regs]; apply rupd_eq.
Qed.
End Rules.

(** *** the limbs of the count *)
Section Chain.
Variable lay : sym -> Z.
Variable ra : Z.
Notation tw := (tw lay ra).
Definition zeroChk (i : nat) : list tinstr := [X (I Icmp [at8 RDX (i + 1); OReg RAX]); jnz 82].
Definition sbbChk (lz : nat) (i : nat) : list tinstr := [X (I Imov [OReg RAX; q8 i]); X (I Isbb [OReg RAX; at8 RDX (i + 1)]); jnz lz].
Lemma zeroChk_nolab l L : tnolab l (flat_map zeroChk L) = true.
Proof. apply tnolab_flat. reflexivity. Qed.
Lemma sbbChk_nolab lz l L : tnolab l (flat_map (sbbChk lz) L) = true.
Proof. apply tnolab_flat. reflexivity. Qed.
Variable p : Z.
Variable n : nat.
Hypothesis Pp : X86RawFacts.ptr (p + 8) n.
Hypothesis Hp : 0 <= p.
Notation bi m j := (mem m (p + 8 + 8 * Z.of_nat j)).
Lemma ptr_cell m j : (j < n)%nat -> regs m RDX = p -> rd lay m (at8 RDX (j + 1)) = Some (bi m j).
Proof. intros Hj E. destruct Pp as (P1 & P2 & P3). apply (rd_at8 lay m RDX p); [exact E|lia|lia|]. rewrite <- Z.add_mod_idemp_l, P2 by lia. rewrite Z.add_0_l, Z.mul_comm. apply Z.mod_mul. lia. Qed.
Lemma t_zeros m rest Q k : forall i f0, (i + k <= n)%nat -> words m -> regs m RDX = p -> regs m RAX = 0 ->
  ((forall j, (i <= j < i + k)%nat -> bi m j = 0) -> forall f, tw rest Q (setf m f, None)) ->
  (forall j, (i <= j < i + k)%nat -> bi m j <> 0 -> forall f, tw rest Q (setf m f, Some 82%nat)) -> tw (flat_map zeroChk (seq i k) ++ rest) Q (setf m f0, None).
Proof.
  induction k as [|k IH]; intros i f0 Hk W E1 E2 H1 H2; [cbn [seq flat_map app]; apply H1; intros j Hj; lia|]. cbn [seq flat_map]. unfold zeroChk at 1. cbn [app].
  apply (t_cmpo lay ra _ _ (bi m i)); [reflexivity|rewrite (ptr_cell (setf m f0)); [reflexivity|lia|exact E1]|apply W|rg; apply W|]. intros f Hz. cbn [setf regs] in Hz. rewrite E2 in Hz. apply t_jnz; cbn [setf fl]; rewrite Hz; intros Z0.
  - apply tw_app. apply t_skip; [apply zeroChk_nolab|]. apply (H2 i); [lia|]. intros E. rewrite E in Z0. discriminate.
  - apply (IH (S i) f); [lia|exact W|exact E1|exact E2| |].
    + intros H. apply H1. intros j Hj. destruct (Nat.eq_dec j i) as [->|]; [apply Z.eqb_eq, Z0|apply H; lia].
    + intros j Hj. apply H2. lia.
Qed.
(** q - b < B exactly when the subtraction gives zero above the first limb *)
Notation qi m j := (mem m (lay Sq + 8 * Z.of_nat j)).
Hypothesis Pq : X86RawFacts.ptr (lay Sq) n.
Lemma q_cell m j : (j < n)%nat -> rd lay m (q8 j) = Some (qi m j).
Proof. intros Hj. destruct Pq as (P1 & P2 & P3). apply rd_q8; [reflexivity|lia|]. rewrite <- Z.add_mod_idemp_l, P2 by lia. rewrite Z.add_0_l, Z.mul_comm. apply Z.mod_mul. lia. Qed.
Lemma es_low (x : nat -> Z) i : (i <= n)%nat -> exists h, es x n = es x i + B ^ Z.of_nat i * h.
Proof.
  intros H. exists (es (fun j => x (i + j)%nat) (n - i)). replace n with (i + (n - i))%nat at 1 by lia. clear H. induction (n - i)%nat as [|k IH]; [cbn [es]; rewrite Nat.add_0_r; ring|].
  rewrite Nat.add_succ_r. cbn [es]. rewrite IH, Nat2Z.inj_add, Z.pow_add_r by lia. ring.
Qed.
Variable m : mach.
Hypothesis W : words m.
Hypothesis Ep : regs m RDX = p.
Definition cd : Z := es (fun j => qi m j) n - es (fun j => bi m j) n.
Definition diff (i : nat) : Z := es (fun j => qi m j) i - es (fun j => bi m j) i.
Lemma cd_low i : (i <= n)%nat -> exists h, cd = diff i + B ^ Z.of_nat i * h.
Proof. intros H. destruct (es_low (fun j => qi m j) i H) as [h1 E1]. destruct (es_low (fun j => bi m j) i H) as [h2 E2]. exists (h1 - h2). unfold cd, diff. rewrite E1, E2. ring. Qed.
Variable r : Z.
Hypothesis Hr : 0 <= r < B.
Definition same (m' : mach) : Prop := mem m' = mem m /\ forall x, x <> RAX -> regs m' x = regs m x.
Lemma Bp i : 0 < B ^ Z.of_nat i. Proof. apply Z.pow_pos_nonneg; [reflexivity|lia]. Qed.
Lemma t_sbbs lz rest Q k : forall i m1, (1 <= i)%nat -> (i + k = n)%nat -> same m1 -> words m1 -> diff i = r - b2z (cf (fl m1)) * B ^ Z.of_nat i ->
  (forall m2, same m2 -> words m2 -> diff n = r - b2z (cf (fl m2)) * B ^ Z.of_nat n -> tw rest Q (m2, None)) ->
  (forall m2, same m2 -> words m2 -> ~ 0 <= cd < B -> tw rest Q (m2, Some lz)) -> tw (flat_map (sbbChk lz) (seq i k) ++ rest) Q (m1, None).
Proof.
  induction k as [|k IH]; intros i m1 Hi Hk SM W1 HD H1 H2.
  { cbn [seq flat_map app]. rewrite Nat.add_0_r in Hk. subst i. apply H1; assumption. }
  cbn [seq flat_map]. unfold sbbChk at 1. cbn [app]. destruct SM as [SM1 SM2]. pose proof (proj2 W (lay Sq + 8 * Z.of_nat i)) as RQ. pose proof (proj2 W (p + 8 + 8 * Z.of_nat i)) as RB.
  apply (t_ldo lay ra _ _ _ (qi m i)); [rewrite <- SM1; apply q_cell; lia|]. apply (t_sbbo lay ra _ _ _ (bi m i)); [rewrite (ptr_cell _ i); [rg; rewrite SM1; reflexivity|lia|rg; rewrite SM2 by discriminate; exact Ep]|]. intros f. rg. intros Hc Hz.
  set (c1 := b2z (cf (fl m1))) in *. set (s := qi m i - bi m i - c1) in *. assert (HC : 0 <= c1 <= 1) by (unfold c1; destruct (cf (fl m1)); cbn; lia).
  assert (MS : 0 <= s mod B < B) by (apply Z.mod_pos_bound; reflexivity).
  assert (ES : s = s mod B - b2z (cf f) * B). { rewrite Hc. destruct (Z.ltb_spec s 0) as [N|N]; cbn [b2z]; [rewrite <- (Z.mod_add s 1), Z.mod_small by (unfold s in *; lia); lia|rewrite Z.mod_small by (unfold s in *; lia); lia]. }
  assert (DS : diff (S i) = r + s mod B * B ^ Z.of_nat i - b2z (cf f) * B ^ Z.of_nat (S i)).
  { unfold diff in *. cbn [es]. replace (es _ i + _ - _) with ((es (fun j => qi m j) i - es (fun j => bi m j) i) + (qi m i - bi m i) * B ^ Z.of_nat i) by ring. rewrite HD. replace (qi m i - bi m i) with (s mod B - b2z (cf f) * B + c1) by (unfold s in *; lia). rewrite Nat2Z.inj_succ, Z.pow_succ_r by lia. ring. }
  set (m2 := setf _ f). assert (S2 : same m2). { split; [exact SM1|]. intros x Hx. unfold m2. cbn [setf setr regs]. rewrite !rupd_neq by exact Hx. apply SM2, Hx. }
  assert (W2 : words m2) by (unfold m2; apply words_setf, words_setr; [apply words_setf, words_setr; [exact W1|exact RQ]|exact MS]).
  assert (FZ : zf (fl m2) = (s mod B =? 0)) by exact Hz. apply t_jnz; rewrite FZ; intros Z0.
  - apply tw_app. apply t_skip; [apply sbbChk_nolab|]. apply H2; [exact S2|exact W2|]. intros HB. apply Z.eqb_neq in Z0. destruct (cd_low (S i) ltac:(lia)) as [h Eh].
    assert (R1 : 0 <= r + s mod B * B ^ Z.of_nat i < B ^ Z.of_nat (S i)).
    { pose proof (Bp i) as HP. rewrite Nat2Z.inj_succ, Z.pow_succ_r by lia. assert (B <= B ^ Z.of_nat i) by (rewrite <- (Z.pow_1_r B) at 1; apply Z.pow_le_mono_r; [reflexivity|lia]). clear - HP Hr MS H. nia. }
    assert (EC : cd = r + s mod B * B ^ Z.of_nat i).
    { rewrite <- (Z.mod_small cd (B ^ Z.of_nat (S i))); [rewrite Eh, DS; replace (r + _ - _ + _) with (r + s mod B * B ^ Z.of_nat i + (h - b2z (cf f)) * B ^ Z.of_nat (S i)) by ring; rewrite Z.mod_add by (pose proof (Bp (S i)); lia); apply Z.mod_small, R1|].
      split; [lia|]. apply Z.lt_le_trans with B; [lia|]. rewrite <- (Z.pow_1_r B) at 1. apply Z.pow_le_mono_r; [reflexivity|lia]. }
    assert (B <= B ^ Z.of_nat i) by (rewrite <- (Z.pow_1_r B) at 1; apply Z.pow_le_mono_r; [reflexivity|lia]). clear - EC HB H Hr MS Z0. nia.
  - apply Z.eqb_eq in Z0. apply (IH (S i) m2); [lia|lia|exact S2|exact W2|unfold m2; cbn [setf fl]; rewrite DS, Z0; ring|exact H1|exact H2].
Qed.
End Chain.
