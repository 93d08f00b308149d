(** The bit operations band, bor, bxor and bnot on the machine. *)
From Coq Require Import ZArith Znumtheory List Bool Arith Lia.
From Verif Require Import Limbs LimbsFacts Gen GenFacts Spec Raw RawFacts Fr FrSpec X86 X86Gen X86Sim X86Mont X86Call X86Routines X86Raw X86RawFacts X86RawFacts2 X86RawFacts3 X86Final X86T X86TWords X86TFacts X86THelp X86THelp2 X86THelp3 X86TSpec X86TInv X86TConv X86TFrame X86TLoop X86TAdd X86TCmp X86TBitLoop.
Import ListNotations.
Open Scope Z_scope.

Lemma tnolab_flat l (f : nat -> list tinstr) L : (forall i, tnolab l (f i) = true) -> tnolab l (flat_map f L) = true.
Proof. intros H. induction L as [|i L IH]; [reflexivity|]. cbn [flat_map]. rewrite tnolab_app, H, IH. reflexivity. Qed.
Lemma binEnd_nolab n l : l <> l_sq -> l <> l_done -> tnolab l (binEnd n) = true.
Proof. intros H1 H2. unfold binEnd. rewrite tnolab_app, tnolab_X, binSubQ_nolab by assumption. reflexivity. Qed.
Lemma binL1L2_nolab n o l : l <> l_sq -> l <> l_done -> tnolab l (binL1L2 n o) = true.
Proof. intros H1 H2. unfold binL1L2. rewrite tnolab_app, binEnd_nolab, tnolab_flat by (try assumption; intros i; unfold maskLast; destruct (Nat.eqb _ _); reflexivity). reflexivity. Qed.
Lemma binHigh_nolab n o r l : l <> l_sq -> l <> l_done -> tnolab l (binHigh n o r) = true.
Proof. intros H1 H2. unfold binHigh. rewrite tnolab_app, binEnd_nolab, tnolab_flat by (try assumption; intros i; unfold maskLast; destruct (Nat.eqb _ _); reflexivity). reflexivity. Qed.
Ltac nl1 := first [reflexivity | assumption | match goal with |- _ && _ = true => apply andb_true_intro; split end | apply binL1L2_nolab; discriminate | apply binHigh_nolab; discriminate | apply binEnd_nolab; discriminate | rewrite tnolab_app | match goal with |- tnolab _ (?i :: ?c) = true => change (i :: c) with ([i] ++ c) end ].
Ltac nl := unfold binS1S2, binS1L2, binL1S2; repeat nl1.

Section Bit.
Variable q : Z.
Variable P : zq.
Hypothesis OK : zq_ok q P.
Notation n := (p_n64 P).
Notation opt := (p_opt P).
Notation sb := (stackBytes n opt).
Variable lay : sym -> Z.
Variable ra : Z.
Hypothesis Hra : 0 <= ra < B.
Variable m0 : mach.
Variable D : Z.
Hypothesis HD : sb + 16 * Z.of_nat (S n) + 160 <= D.
Hypothesis Rdy : xready P lay D m0.
Notation sp0 := (regs m0 RSP).
Variable pr : Z.
Hypothesis Dst : xdest P lay D m0 pr.
Hypothesis Edi : regs m0 RDI = pr.
Notation K := (S n).
Notation N8 := (8 * Z.of_nat (S n)).
Notation pd := (pr + 8).
Lemma D_24 : 24 <= D. Proof. pose proof (sb_pos P). lia. Qed.
Lemma D_pos : 0 <= D. Proof. pose proof (sb_pos P). lia. Qed.
Notation Inv := (Inv m0 D pr).
Notation St := (St m0 D pr).
Notation Opr := (Opr P lay m0 D pr Dst).
Notation Dpr := (Dpr P lay m0 D pr Dst).
Notation Bpr := (Bpr P lay m0 D pr Dst).
Notation inv_head := (inv_head P lay m0 D pr Dst).
Notation valRes := (valRes q P).
Notation bp := (sp0 - 24).
Notation saved := (saved m0).
Notation FS := (X86TAdd.FS m0 D pr).
Notation Res := (X86TAdd.Res P m0 D pr).
Ltac inv1 := first [assumption | apply inv_setf | apply inv_setr; [|try lia|nin'] | apply inv_head; [lia| |try lia] | apply (inv_stk m0 D pr K Opr Bpr); [|try lia|try lia] ].
Ltac inv := repeat inv1.
Ltac stt H := let H1 := fresh in let H2 := fresh in let H3 := fresh in let H4 := fresh in pose proof H as (H1 & H2 & H3 & H4); split; [inv|split; [rg; try lia|split; [rg; try lia|rg; try lia]]].
(** the value of the result *)
Definition fold_q (x : Z) : Z := (x mod 2 ^ p_bits P) mod q.
Lemma fold_range x : 0 <= fold_q x < q. Proof. apply Z.mod_pos_bound. pose proof (q_pos q P OK). lia. Qed.
(** limbs stored at the destination *)
Lemma fs_stored c k m m' : FS k c m -> (k <= K)%nat -> words m' -> agree m m' -> untouched m pd n m' -> FS K c m' /\ mem m' pr = mem m pr.
Proof.
  intros ((I1 & S1 & S2 & S3) & (V1 & V2 & V3)) Hk W A U. pose proof Opr as OP. pose proof D_24. destruct (inv_mono m0 D pr K Bpr _ _ _ Hk I1) as (_ & MI & RI).
  split; [|apply U; intros j Hj; lia]. split.
  - split; [|split; [|split]; rewrite A by discriminate; assumption]. split; [exact W|]. split.
    + intros x H1 H2. rewrite U by (intros j Hj; lia). apply MI; assumption.
    + intros r Hr. rewrite A; [apply RI, Hr|]. intros ->. cbn [In] in Hr. intuition discriminate.
  - split; [|split]; rewrite U by (intros j Hj; lia); assumption.
Qed.
Lemma pr_ptr : X86RawFacts.ptr pd n /\ 0 <= pr /\ pr mod 8 = 0.
Proof. destruct Dst as [H1 H2 H3 _ _]. split; [|auto]. split; [lia|]. split; [rewrite Z.add_mod, H2 by lia; reflexivity|lia]. Qed.
Lemma q_at k m : (k <= K)%nat -> Inv k m -> X86RawFacts.ptr (lay Sq) n /\ vals m (lay Sq) n = q.
Proof.
  intros Hk I1. pose proof (data_at P lay m0 D Rdy pr K Opr Dpr Bpr k m Sq Hk I1) as A. destruct (at_vals _ _ _ _ (q_ok q P OK) A) as [H3 H4]. split; [exact H3|]. cbn [data] in H4. rewrite H4. exact (q_eval q P OK).
Qed.
Lemma r_end g V c m m2 s0 code : FS 1 c m -> mem m pr = word_of s0 (128 * 2 ^ 24) -> is_int32 s0 -> upto m pd g n m2 -> es g n = V mod 2 ^ p_bits P -> tnolab l_ret code = true -> tw lay ra (binEnd n ++ code) (Res (valRes (fold_q V))) (m2, None).
Proof.
  intros F0 HW Hs (W & A & U & G) EV HL. destruct (fs_stored c 1 m m2 F0 ltac:(lia) W A U) as [F2 M2]. pose proof F2 as ((I2 & _ & ED & _) & _). destruct pr_ptr as (P1 & P2 & P3). destruct (q_at K m2 ltac:(lia) I2) as [PQ VQ]. pose proof (N1 q P OK) as Hn.
  assert (EO : out pd m2 n = V mod 2 ^ p_bits P) by (rewrite <- EV; apply es_ext; exact G). pose proof (two_bits q P OK) as [T1 T2]. pose proof (Z.mod_pos_bound V _ T1) as RV.
  assert (AP : apart n (lay Sq) pd). { pose proof (Dpr Sq) as H. destruct (q_ok q P OK) as (L & _). cbn [data] in H. rewrite L in H. unfold apart. lia. }
  unfold binEnd. rewrite <- app_assoc. apply t_X. eapply ww_mono; [|apply ww_words; [exact W|apply binSubQ_ok|apply (tail8 lay n m2 1 pd W ltac:(rewrite ED; lia) P1 Hn PQ AP); rewrite EO, VQ; lia]].
  intros [m3 sk] [[K1 K2 K3 K4 K5] W3]. cbn [fst snd] in *. subst sk. rewrite EO, VQ in K5. fold (fold_q V) in K5.
  destruct (fs_stored c K m2 m3 F2 (le_n _) W3 K2 K3) as [F3 M3]. set (l := map (fun j => mem m3 (pd + 8 * Z.of_nat j)) (seq 0 n)).
  assert (Ll : length l = n) by (unfold l; rewrite map_length, seq_length; reflexivity).
  assert (Nl : forall j, (j < n)%nat -> nth j l 0 = mem m3 (pd + 8 * Z.of_nat j)).
  { intros j Hj. unfold l. rewrite (nth_indep _ 0 ((fun j => mem m3 (pd + 8 * Z.of_nat j)) 0%nat)) by (rewrite map_length, seq_length; exact Hj). rewrite (map_nth (fun j => mem m3 (pd + 8 * Z.of_nat j))), seq_nth by exact Hj. reflexivity. }
  pose proof (fold_range V) as FR.
  apply (r_leave q P OK lay ra Hra m0 D HD Rdy pr Dst Edi (fold_q V) FR 128 c m3 s0 l (fold_q V)).
  - exact F3.
  - destruct P1 as (A1 & A2 & A3). split; [exact A1|]. split; [exact A2|]. split; [rewrite Ll; exact A3|]. rewrite Ll. intros j Hj. symmetry. apply Nl, Hj.
  - rewrite M3, M2. exact HW.
  - exact Hs.
  - split; [exact Ll|]. unfold l. apply Forall_map, Forall_forall. intros j Hj. apply in_seq in Hj. apply K4. lia.
  - rewrite (Z.mod_small _ _ FR), <- K5. unfold X86RawFacts2.out. rewrite es_eval. reflexivity.
  - left. split; [reflexivity|]. apply Z.mod_small, FR.
  - exact HL.
Qed.
(** *** operands *)
Definition held (c : Z) (m : mach) (p x : Z) : Prop :=
  0 <= p /\ X86RawFacts.ptr (p + 8) n /\ vals m (p + 8) n = x /\ 0 <= x < q /\ ((sp0 - c <= p /\ p + N8 <= sp0) \/ xoff D m0 p (S n)) /\ (p = pr \/ xapart n p pr).
Lemma held_ext c c' m m' p x : c <= c' -> (forall y, p + 8 <= y < p + N8 -> mem m' y = mem m y) -> held c m p x -> held c' m' p x.
Proof.
  intros Hc E (H1 & H2 & H3 & H4 & H5 & H6). split; [exact H1|]. split; [exact H2|]. split; [rewrite <- H3; unfold vals; apply es_ext; intros j Hj; apply E; lia|]. split; [exact H4|]. split; [|exact H6]. destruct H5 as [H5|H5]; [left; lia|right; exact H5].
Qed.
Lemma held_user c k m p s t l x : (k <= 1)%nat -> Inv k m -> xfields n m0 p s t l -> xoff D m0 p (S n) -> (p = pr \/ xapart n p pr) -> eval l = x -> 0 <= x < q -> held c m p x.
Proof.
  intros Hk I1 F O S E R. pose proof (e_ptr q P OK m0 p s t l F) as (A1 & A2 & A3). destruct F as (F1 & F2 & F3). apply at_tail in F3. assert (A : at_addr m (p + 8) l). { apply (user_at m0 D pr K Opr Bpr k m (p + 8)); [exact I1|exact F3| |]; rewrite (proj1 F2); unfold xoff, xapart in *; lia. }
  destruct (at_vals _ _ _ _ F2 A) as [H3 H4]. split; [exact A1|]. split; [exact H3|]. split; [rewrite H4; exact E|]. split; [exact R|]. split; [right; exact O|exact S].
Qed.
Lemma held_lim c m m' p x i : held c m p x -> untouched m pd i m' -> (i < n)%nat -> mem m' (p + 8 + 8 * Z.of_nat i) = mem m (p + 8 + 8 * Z.of_nat i).
Proof. intros (_ & _ & _ & _ & _ & H6) U Hi. apply U. intros j Hj. unfold xapart in H6. lia. Qed.
(** setting the type keeps everything else *)
Lemma b_setT' c m rest Q : 24 <= c -> FS 1 c m ->
  (forall m', FS 1 c m' -> mem m' pr = word_of (sx32 (mem m pr)) (128 * 2 ^ 24) -> (forall r, r <> R11 -> regs m' r = regs m r) -> (forall x, x <> pr -> mem m' x = mem m x) -> tw lay ra rest Q (m', None)) -> tw lay ra (setTypeDest 128 ++ rest) Q (m, None).
Proof.
  intros Hc (ST & SV) H. pose proof (pr_facts q P OK lay m0 D pr Dst) as (P1 & P2 & P3). pose proof Opr as OP. pose proof SV as (V1 & V2 & V3). pose proof (sb_pos P). apply t_setType with (p := pr); [cbn [In]; tauto|apply ST|exact P2| |apply (st_range _ _ _ _ _ _ _ _ _ ST)].
  intros x f Hx Hx2. pose proof (Z.mod_pos_bound (mem m pr) W32 ltac:(reflexivity)) as Hw.
  assert (EB : B = W32 * W32) by reflexivity. assert (0 <= 128 * 2 ^ 24 * W32 /\ 128 * 2 ^ 24 * W32 + W32 <= B) by (rewrite EB; unfold W32 in *; lia).
  apply H.
  - split; [stt ST|]. split; [|split]; rg; rewrite mupd_neq by lia; assumption.
  - rg. rewrite mupd_eq. unfold word_of. rewrite sx32_back. reflexivity.
  - intros r Hr. cbn [setm setf setr regs]. rewrite !rupd_neq by exact Hr. reflexivity.
  - intros y Hy. rg. apply mupd_neq, Hy.
Qed.
Lemma held_setT c m m' p x : (forall y, y <> pr -> mem m' y = mem m y) -> held c m p x -> held c m' p x.
Proof. intros E H. pose proof H as (_ & _ & _ & _ & _ & H6). eapply held_ext; [apply Z.le_refl| |exact H]. intros y Hy. apply E. unfold xapart in H6. pose proof (N1 q P OK). lia. Qed.
(** *** conversions *)
Section Conv.
Variables (f : mach -> option mach) (p s t : Z) (l : list Z) (x : Z).
Hypothesis F : xfields n m0 p s t l.
Hypothesis O : xoff D m0 p (S n).
Hypothesis AP : xapart n p pr.
Hypothesis Hf : CV P lay f p s t l x.
Hypothesis Rx : 0 <= x < q.
Variables (c : Z) (m : mach) (rest : list tinstr) (Q : X86RawFacts.st -> Prop).
Hypothesis C1 : c mod 8 = 0.
Hypothesis C2 : 24 <= c.
Hypothesis C3 : c + N8 + 32 + sb <= D.
Hypothesis HS : FS 1 c m.
Notation tmp := (sp0 - (c + N8)).
Definition after_conv (r other : reg) (m' : mach) : Prop := FS 1 (c + N8) m' /\ regs m' r = tmp /\ regs m' other = regs m other /\ held (c + N8) m' tmp x /\ (forall p' v', held c m p' v' -> held (c + N8) m' p' v') /\ (forall y, ~ (sp0 - D <= y < sp0) -> mem m' y = mem m y).
Lemma conv_fields : xfields n m p s t l.
Proof. destruct HS as ((I1 & _) & _). destruct F as (F1 & F2 & F3). split; [exact F1|]. split; [exact F2|]. apply (user_at m0 D pr K Opr Bpr 1 m p); [exact I1|exact F3| |]; cbn [length]; rewrite (proj1 F2); unfold xapart, xoff in *; lia. Qed.
Lemma conv_post r other L m' : RSx P x L -> ConvPost P m0 D pr 1 c pr bp m r other L m' -> after_conv r other m'.
Proof.
  intros (w & l' & -> & L1 & L2) (ST' & E1 & E2 & AT & M1 & M2). pose proof D_24. pose proof (sb_pos P). pose proof (xr_room _ _ _ _ Rdy). pose proof Opr as OP.
  split; [split; [exact ST'|eapply (X86TAdd.saved_ext P m0 D HD); [exact C2|exact M1|apply HS]]|]. split; [exact E1|]. split; [exact E2|]. split; [|split; [|exact M2]].
  - apply at_tail in AT as AT'. destruct (at_vals _ _ _ _ L1 AT') as [H3 H4]. split; [apply AT|]. split; [exact H3|]. split; [rewrite H4; exact L2|]. split; [exact Rx|]. split; [left; lia|right; unfold xapart; lia].
  - intros p' v' HH. pose proof HH as (_ & _ & _ & _ & H5 & _). eapply held_ext; [| |exact HH]; [lia|]. intros y Hy. unfold xoff in H5. destruct H5 as [X2|X2]; [apply M1; lia|apply M2; lia].
Qed.
Lemma k_a : regs m RSI = p -> (forall m', after_conv RSI RDX m' -> tw lay ra rest Q (m', None)) -> tw lay ra (conv_a n f ++ rest) Q (m, None).
Proof.
  intros E H. pose proof (sb_pos P). destruct HS as (ST & SV). apply (b_conv_a P lay ra Hra m0 D Rdy pr K Opr Dpr Bpr f (RSx P x) (8 + sb) p s t l O ltac:(lia) Hf 1 c pr bp m); [lia|exact C1|lia|lia|exact ST|exact conv_fields|exact E|].
  intros m' L HL HP. apply H. exact (conv_post _ _ _ _ HL HP).
Qed.
Lemma k_b : regs m RDX = p -> (forall m', after_conv RDX RSI m' -> tw lay ra rest Q (m', None)) -> tw lay ra (conv_b n f ++ rest) Q (m, None).
Proof.
  intros E H. pose proof (sb_pos P). destruct HS as (ST & SV). apply (b_conv_b P lay ra Hra m0 D Rdy pr K Opr Dpr Bpr f (RSx P x) (8 + sb) p s t l O ltac:(lia) Hf 1 c pr bp m); [lia|exact C1|lia|lia|exact ST|exact conv_fields|exact E|].
  intros m' L HL HP. apply H. exact (conv_post _ _ _ _ HL HP).
Qed.
End Conv.
(** *** the loops *)
Notation lbo := (2 ^ (p_bits P - 64 * (Z.of_nat n - 1)) - 1).
Definition msk (i : nat) (v : Z) : Z := if Nat.eqb i (n - 1) then Z.land v lbo else v.
Lemma msk_range i v : 0 <= v < B -> 0 <= msk i v < B.
Proof. intros H. unfold msk. destruct (Nat.eqb _ _); [|exact H]. pose proof (zk_bits_range q P OK). pose proof (N1 q P OK). rewrite Z.sub_1_r, <- Z.ones_equiv, Z.land_ones by lia. assert (0 < 2 ^ (p_bits P - 64 * (Z.of_nat n - 1))) by (apply Z.pow_pos_nonneg; lia). pose proof (Z.mod_pos_bound v _ H2). pose proof (Z.mod_le v _ (proj1 H) H2). lia. Qed.
(** the mask and the store of limb i *)
Lemma t_store c m g i m' v rest Q : FS 1 c m -> (i < n)%nat -> upto m pd g i m' -> g i = msk i (regs m' RAX) -> v = regs m' RAX ->
  (forall m2, words m2 -> agree m m2 -> mem m2 = mupd (mem m') (pd + 8 * Z.of_nat i) (g i) -> tw lay ra rest Q (m2, None)) -> tw lay ra (maskLast n i ++ X (I Imov [at8 RDI (i + 1); OReg RAX]) :: rest) Q (m', None).
Proof.
  intros F0 Hi (W & A & U & G) Eg _ H. pose proof F0 as ((I1 & _ & ED & _) & _). destruct pr_ptr as (P1 & P2 & P3). replace (i + 1)%nat with (S i) by lia.
  assert (ST : forall m1, words m1 -> agree m m1 -> mem m1 = mem m' -> regs m1 RAX = g i -> tw lay ra (X (I Imov [at8 RDI (S i); OReg RAX]) :: rest) Q (m1, None)).
  { intros m1 W1 A1 M1 E1. apply t_X1. eapply w_st; [apply at8_S with (n := n) (p := pr); [rewrite A1 by discriminate; exact ED|exact P2|exact P1|exact Hi]|]. apply ww_nil. rewrite E1. apply H; [apply words_setm; [exact W1|rewrite <- E1; apply W1]|exact A1|cbn [setm mem]; rewrite M1; reflexivity]. }
  unfold maskLast. unfold msk in Eg. destruct (Nat.eqb i (n - 1)); cbn [app lboMask].
  - assert (MR : 0 <= Z.land (regs m' RAX) lbo < B) by (pose proof (msk_range (n - 1) (regs m' RAX) (proj1 W RAX)) as MR; unfold msk in MR; rewrite Nat.eqb_refl in MR; exact MR). assert (DA : rd lay m' (OMem (BSym SlboMask) 0) = Some lbo).
    { pose proof (data_at P lay m0 D Rdy pr K Opr Dpr Bpr 1 m SlboMask ltac:(lia) I1) as DA. cbn [data] in DA. destruct DA as (D1 & D2 & D3 & D4). cbn [length] in D3. pose proof (Dpr SlboMask) as DD. cbn [data length] in DD. rewrite <- (zk_lbo q P OK). specialize (D4 0%nat ltac:(cbn; lia)). cbn [nth] in D4. rewrite Z.mul_0_r, Z.add_0_r in D4.
      rewrite (rd_loc lay m' _ (lay SlboMask)); [f_equal; rewrite U by (intros j Hj; lia); exact D4|]. split; [unfold addr; rewrite Z.add_0_r; apply Z.mod_small; lia|exact D2]. }
    eapply tw_cons; [unfold tstep; cbn [texec]; rewrite DA; reflexivity|]. apply ST; [|intros r Hr; cbn [setf setr regs]; rewrite rupd_neq by exact Hr; apply A, Hr|reflexivity|cbn [setf setr regs]; rewrite rupd_eq; symmetry; exact Eg].
    apply words_setf, words_setr; [exact W|]. cbn [bit_op]. rewrite <- Eg. rewrite Eg. exact MR.
  - apply ST; [exact W|exact A|reflexivity|symmetry; exact Eg].
Qed.
Lemma agree_step m m' v f : agree m m' -> agree m (setf (setr m' RAX v) f).
Proof. intros A r Hr. cbn [setf setr regs]. rewrite rupd_neq by exact Hr. apply A, Hr. Qed.
(** [bit o rax, x_i] *)
Lemma t_bit o m' d x i rest Q : words m' -> regs m' d = x -> 0 <= x -> X86RawFacts.ptr (x + 8) n -> (i < n)%nat ->
  (forall f, words (setf (setr m' RAX (bit_op o (regs m' RAX) (mem m' (x + 8 + 8 * Z.of_nat i)))) f) -> tw lay ra rest Q (setf (setr m' RAX (bit_op o (regs m' RAX) (mem m' (x + 8 + 8 * Z.of_nat i)))) f, None)) ->
  tw lay ra (Bit o RAX (at8 d (S i)) :: rest) Q (m', None).
Proof.
  intros W E Hx Px Hi H. eapply tw_cons; [unfold tstep; cbn [texec]; rewrite (rd_loc lay m' _ (x + 8 + 8 * Z.of_nat i)) by (apply at8_S with (n := n); assumption); reflexivity|]. apply H. apply words_setf, words_setr; [exact W|]. apply (bit_op_range 64); [lia|apply W|apply W].
Qed.
Lemma es_msk x : (forall j, (j < n)%nat -> 0 <= x j < B) -> es (fun j => msk j (x j)) n = es x n mod 2 ^ p_bits P.
Proof. intros H. unfold msk. apply es_mask; [apply (N1 q P OK)|apply (zk_bits_range q P OK)|exact H]. Qed.
Notation lim m p := (fun j => mem m (p + 8 + 8 * Z.of_nat j)).
Section Blocks.
Variable o : bitop.
Variables (c : Z) (m : mach) (s0 : Z).
Hypothesis HS : FS 1 c m.
Hypothesis HW : mem m pr = word_of s0 (128 * 2 ^ 24).
Hypothesis Hs0 : is_int32 s0.
Lemma wm : words m. Proof. apply HS. Qed.
Lemma agree_refl : agree m m. Proof. intros r _. reflexivity. Qed.
Lemma b_LL pa pb x y code : regs m RSI = pa -> regs m RDX = pb -> held c m pa x -> held c m pb y -> tnolab l_ret code = true ->
  tw lay ra (binL1L2 n o ++ code) (Res (valRes (fold_q (bit_op o x y)))) (m, None).
Proof.
  intros Ea Eb Ha Hb HL. pose proof Ha as (A1 & A2 & A3 & A4 & _ & _). pose proof Hb as (B1 & B2 & B3 & B4 & _ & _). pose proof wm as W0. unfold binL1L2. rewrite <- app_assoc.
  set (g := fun i => msk i (bit_op o (lim m pa i) (lim m pb i))). apply (store_loop lay ra m pd _ g n 0).
  - intros i Hi m' rest Q U K'. pose proof U as (W & A & UT & _). rewrite <- app_assoc. cbn [app]. replace (i + 1)%nat with (S i) by lia. apply t_X1. eapply w_ld; [apply at8_S with (n := n) (p := pa); [rewrite A by discriminate; exact Ea|exact A1|exact A2|lia]|]. apply ww_nil.
    rewrite (held_lim c m m' pa x i Ha UT) by lia. set (m1 := setr m' RAX _). assert (W1 : words m1) by (apply words_setr; [exact W|apply W0]). assert (G1 : agree m m1) by (apply agree_rax, A).
    apply (t_bit o m1 RDX pb i); [exact W1|rewrite G1 by discriminate; exact Eb|exact B1|exact B2|lia|]. intros f W2. change (mem m1) with (mem m') in *. rewrite (held_lim c m m' pb y i Hb UT) in * by lia.
    assert (E1 : regs m1 RAX = lim m pa i) by (unfold m1; cbn [setr regs]; apply rupd_eq). rewrite E1 in *. rewrite <- app_assoc. cbn [app]. replace (S i) with (i + 1)%nat by lia.
    eapply (t_store c m g i _ _ rest Q HS); [lia|split; [exact W2|split; [apply agree_step, G1|split; [exact UT|apply U]]]|cbn [setf setr regs]; rewrite rupd_eq; reflexivity|reflexivity|]. intros m2 X1 X2 X3. apply K'; assumption.
  - split; [exact W0|]. split; [exact agree_refl|]. split; [intros z _; reflexivity|intros j Hj; lia].
  - intros m2 U. apply (r_end g (bit_op o x y) c m m2 s0); [exact HS|exact HW|exact Hs0|exact U| |exact HL].
    unfold g. rewrite (es_msk (fun i => bit_op o (lim m pa i) (lim m pb i))) by (intros j Hj; apply (bit_op_range 64); [lia|apply W0|apply W0]). rewrite es_bit by (intros; apply W0). rewrite <- A3, <- B3. reflexivity.
Qed.
(** one operand short and not negative *)
Lemma b_high r pb s y rest0 code : r <> RAX -> r <> RDI -> regs m r = pb -> held c m pb y -> 0 <= s < 2 ^ 31 -> 2 ^ 32 < q -> regs m RAX = s -> tnolab l_ret code = true -> rest0 = binHigh n o r ++ code ->
  tw lay ra (Bit o RAX (at8 r 1) :: X (I Imov [at8 RDI 1; OReg RAX]) :: rest0) (Res (valRes (fold_q (bit_op o s y)))) (m, None).
Proof.
  intros N1' N2 Eb Hb Hs HQ Er HL ->. pose proof Hb as (B1 & B2 & B3 & B4 & _ & _). pose proof wm as W0. pose proof (N1 q P OK) as Hn. destruct pr_ptr as (P1 & P2 & P3). pose proof HS as ((_ & _ & ED & _) & _).
  set (g0 := fun i => bit_op o (sht s i) (lim m pb i)). set (g := fun i => if Nat.eqb i 0 then g0 i else msk i (g0 i)). assert (SB : s < B) by (assert (2 ^ 31 < B) by reflexivity; lia).
  assert (G0 : forall j, 0 <= g0 j < B) by (intros j; apply (bit_op_range 64); [lia|unfold sht; destruct (Nat.eqb j 0); change (2 ^ 64) with B; lia|apply W0]).
  apply (t_bit o m r pb 0); [exact W0|exact Eb|exact B1|exact B2|lia|]. rewrite Er. intros f W1. set (m1 := setf _ f) in *. assert (A1 : agree m m1) by (apply agree_step, agree_refl).
  apply t_X1. eapply w_st; [apply at8_S with (n := n) (p := pr) (j := 0%nat); [rewrite A1 by discriminate; exact ED|exact P2|exact P1|lia]|]. apply ww_nil.
  assert (E1 : regs m1 RAX = g 0%nat) by (unfold m1; cbn [setf setr regs]; rewrite rupd_eq; reflexivity). rewrite E1.
  assert (U1 : upto m pd g 1 (setm m1 (pd + 8 * Z.of_nat 0) (g 0%nat))).
  { eapply (upto_S m pd g 0 m); [| |exact A1|reflexivity].
    - split; [exact W0|]. split; [exact agree_refl|]. split; [intros z _; reflexivity|intros j Hj; lia].
    - apply words_setm; [exact W1|apply (G0 0%nat)]. }
  unfold binHigh. rewrite <- app_assoc. apply (store_loop lay ra m pd _ g (n - 1) 1); [|exact U1|].
  - intros i Hi m' rest Q U K'. pose proof U as (W & A & UT & _). rewrite <- app_assoc. cbn [app]. replace (i + 1)%nat with (S i) by lia. apply t_zero. intros f2. set (m3 := setf _ f2). assert (W3 : words m3) by (apply words_setf, words_setr; [exact W|pose proof B_pos; lia]). assert (G3 : agree m m3) by (apply agree_step, A).
    apply (t_bit o m3 r pb i); [exact W3|rewrite G3 by exact N1'; exact Eb|exact B1|exact B2|lia|]. intros f3 W4. change (mem m3) with (mem m') in *. rewrite (held_lim c m m' pb y i Hb UT) in * by lia.
    assert (E3 : regs m3 RAX = sht s i) by (unfold m3, sht; cbn [setf setr regs]; rewrite rupd_eq; destruct (Nat.eqb_spec i 0); [lia|reflexivity]). rewrite E3 in *. rewrite <- app_assoc. cbn [app]. replace (S i) with (i + 1)%nat by lia.
    eapply (t_store c m g i _ _ rest Q HS); [lia|split; [exact W4|split; [apply agree_step, G3|split; [exact UT|apply U]]]|cbn [setf setr regs]; rewrite rupd_eq; unfold g; destruct (Nat.eqb_spec i 0); [lia|reflexivity]|reflexivity|]. intros m2 X1 X2 X3. apply K'; assumption.
  - intros m2 U. replace (1 + (n - 1))%nat with n in U by lia. apply (r_end g (bit_op o s y) c m m2 s0); [exact HS|exact HW|exact Hs0|exact U| |exact HL].
    assert (E0 : es g0 n = bit_op o s y). { unfold g0. rewrite es_bit by (intros; first [apply W0|unfold sht; destruct (Nat.eqb _ 0); lia]). rewrite es_sht by exact Hn. rewrite <- B3. reflexivity. }
    destruct (Nat.eq_dec n 1) as [H1|H1].
    + rewrite (es_ext g g0 n) by (intros j Hj; unfold g; destruct (Nat.eqb_spec j 0); [reflexivity|lia]). rewrite E0. symmetry. pose proof (zk_bits q P OK) as ZB. pose proof (zk_bits_range q P OK). apply Z.mod_small. apply bit_op_range; lia.
    + rewrite (es_ext g (fun j => msk j (g0 j)) n) by (intros j Hj; unfold g; destruct (Nat.eqb_spec j 0) as [->|]; [unfold msk; destruct (Nat.eqb_spec 0 (n - 1)); [lia|reflexivity]|reflexivity]). rewrite es_msk by (intros j _; apply G0). rewrite E0. reflexivity.
Qed.
End Blocks.
(** *** two operands *)
Section Two.
Hypothesis HQ : 2 ^ 32 < q.
Hypothesis N12 : neededFor n opt <> 12%nat.
Hypothesis N7 : n <> 7%nat.
Variable o : bitop.
Variables pa sa ta : Z.
Variable la : list Z.
Variable va : Z.
Hypothesis Fa : xfields n m0 pa sa ta la.
Hypothesis Va : denotes q n sa ta la va.
Hypothesis Oa : xoff D m0 pa K.
Hypothesis Esi : regs m0 RSI = pa.
Variables pb sb' tb : Z.
Variable lb : list Z.
Variable vb : Z.
Hypothesis Fb : xfields n m0 pb sb' tb lb.
Hypothesis Vb : denotes q n sb' tb lb vb.
Hypothesis Ob : xoff D m0 pb K.
Hypothesis Edx : regs m0 RDX = pb.
Notation TA := (e_type q P sa ta la va Va).
Notation vlongA := (v_long q P m0 pa sa ta la va Fa Va).
Notation vshortA := (v_short q P m0 pa sa ta la va Fa Va).
Notation TB := (e_type q P sb' tb lb vb Vb).
Notation vlongB := (v_long q P m0 pb sb' tb lb vb Fb Vb).
Notation vshortB := (v_short q P m0 pb sb' tb lb vb Fb Vb).
Notation Ra := (v_range q P sa ta la va Va).
Notation Rb := (v_range q P sb' tb lb vb Vb).
Notation c2 := (24 + N8).
Notation W := (fold_q (bit_op o va vb)).
Lemma HD64 : sb + 16 * Z.of_nat (S n) + 64 <= D. Proof. lia. Qed.
Notation LA := (cv_long q P OK lay ra Hra D HD64 HQ N12 N7 pa sa ta la va Va).
Notation LB := (cv_long q P OK lay ra Hra D HD64 HQ N12 N7 pb sb' tb lb vb Vb).
Notation NA := (cv_norm q P OK lay ra Hra D HD64 N12 N7 pa sa ta la va Va).
Notation NB := (cv_norm q P OK lay ra Hra D HD64 N12 N7 pb sb' tb lb vb Vb).
Lemma c2_al : c2 mod 8 = 0. Proof. rewrite (Z.mul_comm 8), Z.add_mod, Z.mod_mul by lia. reflexivity. Qed.
(** the low half of an operand's first word *)
Definition low (m : mach) (p s : Z) : Prop := exists t, mem m p = word_of s t /\ 0 <= t < W32.
Lemma low_sx m p s : is_int32 s -> low m p s -> sx32 (mem m p) = s /\ mem m p mod W32 = s mod W32.
Proof. intros Hs (t & -> & Ht). split; [apply sx32_word, Hs|apply word_lo]. Qed.
Lemma low_user k m p s t l v : (k <= 1)%nat -> Inv k m -> xfields n m0 p s t l -> denotes q n s t l v -> xoff D m0 p K -> (p = pr \/ xapart n p pr) -> (p = pr -> mem m pr = mem m0 pr \/ mem m pr = word_of s (128 * 2 ^ 24)) -> low m p s.
Proof.
  clear HQ N12 N7 Fa Va Oa Esi Fb Vb Ob Edx. intros Hk (_ & MI & _) F V O S HP. pose proof (e_head P m0 p s t l F) as E. pose proof (e_type q P s t l v V) as T. assert (RT : 0 <= t < W32) by (unfold isType in T; destruct T as [-> | [-> | [-> | ->]]]; split; vm_compute; congruence).
  destruct S as [-> | S].
  - destruct (HP eq_refl) as [H|H]; [exists t; rewrite H; auto|exists (128 * 2 ^ 24); split; [exact H|split; vm_compute; congruence]].
  - exists t. split; [|exact RT]. rewrite <- E. clear E T RT. unfold xapart, xoff in S, O. clear - MI S O Hk. apply MI; lia.
Qed.
(** the state after the type of the result is set *)
Definition typed (c : Z) (m : mach) : Prop := FS 1 c m /\ exists s0, is_int32 s0 /\ mem m pr = word_of s0 (128 * 2 ^ 24).
Lemma sx_int w : is_int32 (sx32 w). Proof. apply sx32_range. Qed.
Section SL.
Variables (c : Z) (m : mach).
Hypothesis C1 : c mod 8 = 0.
Hypothesis C2 : 24 <= c.
Hypothesis C3 : c + N8 + 32 + sb <= D.
Hypothesis HT : typed c m.
Lemma b_SL p' l0 code : l0 <> l_ret -> l0 <> l_sq -> l0 <> l_done -> tlong ta = false -> (sa < 0 -> xapart n pa pr) -> regs m RSI = pa -> low m pa sa -> regs m RDX = p' -> held c m p' vb -> tnolab l_ret code = true ->
  tw lay ra (binS1L2 lay ra n opt o l0 ++ code) (Res (valRes W)) (m, None).
Proof.
  intros NL1 NL2 NL3 T AP E1 LO E2 HB HL. destruct HT as (F & s0 & Hs0 & HW). pose proof F as (ST & SV). pose proof (sb_pos P) as SB. pose proof (e_ptr q P OK m0 pa sa ta la Fa) as (A1 & A2 & A3). destruct (low_sx m pa sa (proj1 Fa) LO) as [L1 L2]. pose proof (proj1 Fa) as I32.
  unfold binS1L2. rewrite <- !app_assoc. cbn [app]. eapply tw_cons; [unfold tstep; cbn [texec]; rewrite E1, A2; reflexivity|]. rewrite L2. set (m1 := setr m RAX _). pose proof (Z.mod_pos_bound sa W32 ltac:(reflexivity)). assert (W32 < B) by reflexivity.
  assert (F1 : FS 1 c m1) by (split; [unfold m1; stt ST|exact SV]). assert (HB1 : held c m1 p' vb) by (eapply held_ext; [apply Z.le_refl| |exact HB]; reflexivity).
  eapply t_cmpj; [reflexivity|reflexivity| |]; change (regs m1 RAX) with (rupd (regs m) RAX (sa mod W32) RAX); rewrite rupd_eq, Zmod_mod; change (0 mod W32) with 0; rewrite (scond_s32 sa I32); intros f Hb.
  - apply Z.ltb_lt in Hb. eapply tw_cons; [reflexivity|]. eapply tw_cons; [reflexivity|]. apply t_over; [apply binHigh_nolab; assumption|]. apply t_hit.
    eapply (k_a _ pa sa ta la va Fa Oa (AP Hb) LA Ra c); [exact C1|exact C2|exact C3|exact F1|unfold m1; rg; exact E1|]. intros m2 (F2 & X1 & X2 & X3 & X4 & X5).
    apply (b_setT' (c + N8)); [lia|exact F2|]. intros m3 F3 Y1 Y2 Y3. eapply (b_LL o (c + N8) m3 _ F3 Y1 (sx_int _)); [rewrite Y2 by discriminate; exact X1|rewrite Y2, X2 by discriminate; unfold m1; rg; exact E2|apply (held_setT _ m2); [exact Y3|exact X3]|apply (held_setT _ m2); [exact Y3|apply X4, HB1]|exact HL].
  - apply Z.ltb_ge in Hb. unfold is_int32 in I32. rewrite (vshortA T), (Z.mod_small sa q) by lia.
    eapply (b_high o c (setf m1 f) s0 F1 HW Hs0 RDX p' sa vb); [discriminate|discriminate|unfold m1; rg; exact E2|exact HB1|lia|exact HQ|unfold m1; rg; apply Z.mod_small; unfold W32; lia| |reflexivity].
    cbn [tnolab lab]. destruct (Nat.eqb_spec l_ret l0) as [E|_]; [exfalso; apply NL1; symmetry; exact E|]. nl.
Qed.
Lemma b_LS p' l0 code : l0 <> l_ret -> l0 <> l_sq -> l0 <> l_done -> tlong tb = false -> (sb' < 0 -> xapart n pb pr) -> regs m RDX = pb -> low m pb sb' -> regs m RSI = p' -> held c m p' va -> tnolab l_ret code = true ->
  tw lay ra (binL1S2 lay ra n opt o l0 ++ code) (Res (valRes W)) (m, None).
Proof.
  intros NL1 NL2 NL3 T AP E1 LO E2 HB HL. destruct HT as (F & s0 & Hs0 & HW). pose proof F as (ST & SV). pose proof (sb_pos P) as SB. pose proof (e_ptr q P OK m0 pb sb' tb lb Fb) as (A1 & A2 & A3). destruct (low_sx m pb sb' (proj1 Fb) LO) as [L1 L2]. pose proof (proj1 Fb) as I32.
  unfold binL1S2. rewrite <- !app_assoc. cbn [app]. apply (t_ld lay ra _ _ _ _ pb); [rewrite E1, Z.add_0_r; apply Z.mod_small; lia|exact A2|]. set (m1 := setr m RCX _). pose proof (st_mrange _ _ _ _ _ _ _ _ pb ST) as MR.
  assert (F1 : FS 1 c m1) by (split; [unfold m1; stt ST|exact SV]). assert (HB1 : held c m1 p' va) by (eapply held_ext; [apply Z.le_refl| |exact HB]; reflexivity).
  eapply t_cmpj; [reflexivity|reflexivity| |]; change (regs m1 RCX) with (rupd (regs m) RCX (mem m pb) RCX); rewrite rupd_eq, L2; change (0 mod W32) with 0; rewrite (scond_s32 sb' I32); intros f Hb.
  - apply Z.ltb_lt in Hb. do 3 (eapply tw_cons; [reflexivity|]). apply t_over; [apply binHigh_nolab; assumption|]. apply t_hit.
    eapply (k_b _ pb sb' tb lb vb Fb Ob (AP Hb) LB Rb c); [exact C1|exact C2|exact C3|exact F1|unfold m1; rg; exact E1|]. intros m2 (F2 & X1 & X2 & X3 & X4 & X5).
    apply (b_setT' (c + N8)); [lia|exact F2|]. intros m3 F3 Y1 Y2 Y3. eapply (b_LL o (c + N8) m3 _ F3 Y1 (sx_int _)); [rewrite Y2, X2 by discriminate; unfold m1; rg; exact E2|rewrite Y2 by discriminate; exact X1|apply (held_setT _ m2); [exact Y3|apply X4, HB1]|apply (held_setT _ m2); [exact Y3|exact X3]|exact HL].
  - apply Z.ltb_ge in Hb. unfold is_int32 in I32. assert (EW : bit_op o va vb = bit_op o sb' va) by (rewrite (vshortB T), (Z.mod_small sb' q) by lia; destruct o; [apply Z.land_comm|apply Z.lor_comm|apply Z.lxor_comm]). rewrite EW.
    apply t_movsx. rg. change (regs m1 RCX) with (rupd (regs m) RCX (mem m pb) RCX). rewrite rupd_eq, L1. assert (2 ^ 31 < B) by reflexivity. rewrite (Z.mod_small sb' B) by lia. set (m2 := setr (setf m1 f) RAX sb'). assert (F2 : FS 1 c m2) by (destruct F1 as (ST1 & SV1); split; [unfold m2; stt ST1|exact SV1]).
    eapply (b_high o c m2 s0 F2 HW Hs0 RSI p' sb' va); [discriminate|discriminate|unfold m2, m1; rg; exact E2|eapply held_ext; [apply Z.le_refl| |exact HB]; reflexivity|lia|exact HQ|unfold m2; rg; reflexivity| |reflexivity].
    cbn [tnolab lab]. destruct (Nat.eqb_spec l_ret l0) as [E|_]; [exfalso; apply NL1; symmetry; exact E|]. nl.
Qed.
End SL.
Hypothesis Sa : pa = pr \/ xapart n pa pr.
Hypothesis Sb : pb = pr \/ xapart n pb pr.
(** the aliasing of FrSpec.bit_alias_ok *)
Hypothesis ALa : pa = pr -> (tlong ta = true /\ tmont ta = false) \/ (tlong ta = false /\ 0 <= sa /\ (tlong tb = false -> 0 <= sb')).
Hypothesis ALb : pb = pr -> (tlong tb = true /\ tmont tb = false) \/ (tlong tb = false /\ 0 <= sb' /\ (tlong ta = false -> 0 <= sa)).
Lemma apA : sa < 0 -> tlong ta = false -> xapart n pa pr.
Proof. intros H T. destruct Sa as [E|A]; [|exact A]. destruct (ALa E) as [[X _]|(_ & X & _)]; [congruence|lia]. Qed.
Lemma apB : sb' < 0 -> tlong tb = false -> xapart n pb pr.
Proof. intros H T. destruct Sb as [E|A]; [|exact A]. destruct (ALb E) as [[X _]|(_ & X & _)]; [congruence|lia]. Qed.
Lemma apMA : tlong ta = true -> tmont ta = true -> xapart n pa pr.
Proof. intros H T. destruct Sa as [E|A]; [|exact A]. destruct (ALa E) as [[_ X]|(X & _ & _)]; congruence. Qed.
Lemma apMB : tlong tb = true -> tmont tb = true -> xapart n pb pr.
Proof. intros H T. destruct Sb as [E|A]; [|exact A]. destruct (ALb E) as [[_ X]|(X & _ & _)]; congruence. Qed.
Lemma apSS : tlong ta = false -> tlong tb = false -> sa < 0 \/ sb' < 0 -> xapart n pa pr /\ xapart n pb pr.
Proof.
  intros T Tb H. split.
  - destruct Sa as [E|A]; [|exact A]. destruct (ALa E) as [[X _]|(_ & X & Y)]; [congruence|]. specialize (Y Tb). lia.
  - destruct Sb as [E|A]; [|exact A]. destruct (ALb E) as [[X _]|(_ & X & Y)]; [congruence|]. specialize (Y T). lia.
Qed.
(** the operands are loaded *)
Definition Start (m : mach) : Prop := FS 1 24 m /\ regs m RSI = pa /\ regs m RDX = pb /\ regs m RAX = word_of sa ta /\ regs m RCX = word_of sb' tb /\ mem m pr = mem m0 pr.
Lemma start_f m f : Start m -> Start (setf m f). Proof. intros H. exact H. Qed.
Lemma low_a m : FS 1 24 m -> mem m pr = word_of (sx32 (mem m0 pr)) (128 * 2 ^ 24) -> low m pa sa.
Proof. intros ((I1 & _) & _) H. apply (low_user 1 m pa sa ta la va (le_n 1) I1 Fa Va Oa Sa). intros E. right. rewrite H. subst pa. rewrite E in *. rewrite (e_head P m0 pr sa ta la Fa), sx32_word by apply Fa. reflexivity. Qed.
Lemma low_b m : FS 1 24 m -> mem m pr = word_of (sx32 (mem m0 pr)) (128 * 2 ^ 24) -> low m pb sb'.
Proof. intros ((I1 & _) & _) H. apply (low_user 1 m pb sb' tb lb vb (le_n 1) I1 Fb Vb Ob Sb). intros E. right. rewrite H. subst pb. rewrite E in *. rewrite (e_head P m0 pr sb' tb lb Fb), sx32_word by apply Fb. reflexivity. Qed.
(** after setting the type *)
Definition Typed (m : mach) : Prop := typed 24 m /\ regs m RSI = pa /\ regs m RDX = pb /\ low m pa sa /\ low m pb sb'.
Lemma s_type m rest Q : Start m -> (forall m', Typed m' -> tw lay ra rest Q (m', None)) -> tw lay ra (setTypeDest 128 ++ rest) Q (m, None).
Proof.
  intros (F & E1 & E2 & _ & _ & E5) H. apply (b_setT' 24); [lia|exact F|]. intros m' F' Y1 Y2 _. rewrite E5 in Y1. apply H. split; [split; [exact F'|exists (sx32 (mem m0 pr)); split; [apply sx_int|exact Y1]]|]. split; [rewrite Y2 by discriminate; exact E1|]. split; [rewrite Y2 by discriminate; exact E2|]. split; [apply low_a; assumption|apply low_b; assumption].
Qed.
Lemma heldA m : FS 1 24 m -> tlong ta = true -> tmont ta = false -> held 24 m pa va.
Proof. intros ((I1 & _) & _) T M. eapply (held_user 24 1); [lia|exact I1|exact Fa|exact Oa|exact Sa|exact (vlongA T M)|exact Ra]. Qed.
Lemma heldB m : FS 1 24 m -> tlong tb = true -> tmont tb = false -> held 24 m pb vb.
Proof. intros ((I1 & _) & _) T M. eapply (held_user 24 1); [lia|exact I1|exact Fb|exact Ob|exact Sb|exact (vlongB T M)|exact Rb]. Qed.
Lemma low_ext m m' p s : xoff D m0 p K -> (forall y, ~ (sp0 - D <= y < sp0) -> mem m' y = mem m y) -> low m p s -> low m' p s.
Proof. intros O E (t & H1 & H2). exists t. split; [|exact H2]. rewrite E; [exact H1|]. unfold xoff in O. clear - O. lia. Qed.
Lemma typed_ext m m' : (forall y, ~ (sp0 - D <= y < sp0) -> mem m' y = mem m y) -> FS 1 c2 m' -> typed 24 m -> typed c2 m'.
Proof. intros E F (_ & s0 & Hs & HW). split; [exact F|]. exists s0. split; [exact Hs|]. rewrite E; [exact HW|]. pose proof Opr as OP. clear - OP. lia. Qed.
Lemma cD : c2 + N8 + 32 + sb <= D. Proof. clear - HD. lia. Qed.
Lemma cD1 : 24 + N8 + 32 + sb <= D. Proof. clear - HD. lia. Qed.
Lemma c2_24 : 24 <= c2. Proof. lia. Qed.
(** *** the branches *)
Lemma R_SS m l0 code : Start m -> tlong ta = false -> tlong tb = false -> l0 <> l_ret -> tnolab l_ret code = true -> tw lay ra (binS1S2 lay ra n opt o l0 ++ code) (Res (valRes W)) (m, None).
Proof.
  intros S T Tb NL HL. pose proof S as (F & E1 & E2 & E3 & E4 & E5). pose proof F as (ST & SV). pose proof (proj1 Fa) as Ia. pose proof (proj1 Fb) as Ib. pose proof (pr_facts q P OK lay m0 D pr Dst) as (P1 & P2 & P3). pose proof Opr as OP.
  assert (NEG : forall f, sa < 0 \/ sb' < 0 -> tw lay ra (setTypeDest 128 ++ conv_b n (f_toLongNormal lay ra n opt) ++ conv_a n (f_toLongNormal lay ra n opt) ++ binL1L2 n o ++ code) (Res (valRes W)) (setf m f, None)).
  { intros f N. destruct (apSS T Tb N) as [Aa Ab]. apply s_type; [apply start_f, S|]. intros m1 (HT & X1 & X2 & X3 & X4). pose proof HT as (F1 & s0 & Hs0 & HW).
    eapply (k_b _ pb sb' tb lb vb Fb Ob Ab LB Rb 24); [reflexivity|lia|exact cD1|exact F1|exact X2|]. intros m2 (F2 & Y1 & Y2 & Y3 & Y4 & Y5).
    eapply (k_a _ pa sa ta la va Fa Oa Aa LA Ra c2); [exact c2_al|exact c2_24|exact cD|exact F2|rewrite Y2; exact X1|]. intros m3 (F3 & Z1 & Z2 & Z3 & Z4 & Z5).
    eapply (b_LL o (c2 + N8) m3 s0 F3); [|exact Hs0|exact Z1|rewrite Z2; exact Y1|exact Z3|apply Z4, Y3|exact HL]. rewrite Z5, Y5 by (clear - OP; lia). exact HW. }
  unfold binS1S2. rewrite <- !app_assoc. cbn [app].
  eapply t_cmpj; [reflexivity|reflexivity| |]; rewrite E3, word_lo; change (0 mod W32) with 0; rewrite (scond_s32 sa Ia); intros f Hb.
  { apply Z.ltb_lt in Hb. eapply t_after; [unfold leaveRet; cbn [app after lab addi subi pop push jmp mov X86T.st zero]; rewrite Nat.eqb_refl; reflexivity|]. apply NEG. left. exact Hb. }
  eapply t_cmpj; [reflexivity|reflexivity| |]; rg; rewrite E4, word_lo; change (0 mod W32) with 0; rewrite (scond_s32 sb' Ib); intros f2 Hb2.
  { apply Z.ltb_lt in Hb2. eapply t_after; [unfold leaveRet; cbn [app after lab addi subi pop push jmp mov X86T.st zero]; rewrite Nat.eqb_refl; reflexivity|]. apply (NEG f2). right. exact Hb2. }
  clear NEG. apply Z.ltb_ge in Hb, Hb2. unfold is_int32 in Ia, Ib. apply t_zero. intros f3. apply t_mov32. rg. rewrite E3, word_lo. rewrite (Z.mod_small sa W32) by (unfold W32; clear - Ia Hb; lia).
  set (r := bit_op o sa sb'). assert (Rr : 0 <= r < 2 ^ 31) by (apply bit_op_range; clear - Ia Ib Hb Hb2; lia).
  eapply tw_cons; [unfold tstep; cbn [texec]; rg; rewrite E4, word_lo; rewrite (Z.mod_small sb' W32), (Z.mod_small sa W32) by (unfold W32; clear - Ia Ib Hb Hb2; lia); fold r; reflexivity|]. cbn [setr regs]. 
  match goal with |- tw _ _ _ _ (?mm, _) => set (m1 := mm) end. assert (ED1 : regs m1 RDI = pr) by (unfold m1; rg; apply ST). assert (RD1 : regs m1 RDX = r) by (unfold m1; rg; reflexivity). assert (2 ^ 31 < B) by reflexivity.
  assert (F1 : FS 1 24 m1) by (clear - F Rr H Ia Ib Hb Hb2; destruct F as (ST & SV); split; [unfold m1; stt ST|exact SV]).
  apply (t_st lay ra _ _ _ _ pr); [rewrite ED1, Z.add_0_r; apply Z.mod_small; clear - P1 P3; lia|exact P2|]. rewrite RD1. set (m2 := setm m1 pr r).
  assert (F2 : FS 1 24 m2). { destruct F1 as (ST1 & SV1). split; [|destruct SV1 as (V1 & V2 & V3); pose proof D_24; split; [|split]; unfold m2; rg; rewrite mupd_neq by (clear - OP H0; lia); assumption]. clear - ST1 Dst H Rr OK. unfold m2. stt ST1. }
  apply (b_leave P lay ra m0 D Rdy pr K Bpr D_24 K 24 m2); [rewrite Edi; apply (X86TAdd.fs_mono P lay m0 D pr Dst 1 K); [clear; lia|exact F2]|apply F2|]. rewrite Edi. intros m' ST' M' _ _ _.
  apply (finish_short q P OK lay ra Hra m0 D D_pos pr Dst Edi) with (s' := r); [exact ST'|unfold is_int32; clear - Rr; lia|rewrite M'; unfold m2; rg; rewrite mupd_eq; symmetry; apply Z.mod_small; unfold W32; clear - Rr; lia| |].
  - cbn [tnolab lab]. destruct (Nat.eqb_spec l_ret l0) as [E|_]; [exfalso; apply NL; symmetry; exact E|]. nl.
  - intros l' Hl'. assert (EW : W = r mod q). { unfold fold_q. rewrite (vshortA T), (vshortB Tb), (Z.mod_small sa q), (Z.mod_small sb' q) by (clear - HQ Ia Ib Hb Hb2; lia). fold r. rewrite (Z.mod_small r (2 ^ _)); [reflexivity|]. pose proof (zk_bits q P OK) as ZB. clear - ZB Rr HQ. lia. }
    rewrite EW. apply (short_val q P OK HQ); [unfold is_int32; clear - Rr; lia|exact Hl'].
Qed.
Lemma bin_tw : tw lay ra (asm_bin lay ra n opt o) (Res (valRes W)) (m0, None).
Proof.
  pose proof (e_ptr q P OK m0 pa sa ta la Fa) as (A1 & A2 & A3). pose proof (e_ptr q P OK m0 pb sb' tb lb Fb) as (B1 & B2 & B3). pose proof Opr as OP. pose proof D_24 as D24. pose proof TA as Ta. pose proof TB as Tb'.
  unfold asm_bin. apply (b_enter P lay ra m0 D Rdy pr K Opr Bpr D_24). rewrite Edi. intros m ST SV RG MM. cbn [app]. pose proof (word_range sa ta Ta) as WR. pose proof (word_range sb' tb Tb') as WRb.
  assert (F : FS 1 24 m) by (apply (X86TAdd.fs_mono P lay m0 D pr Dst 0 1); [clear; lia|split; assumption]).
  apply (t_ld lay ra _ _ _ _ pa); [rewrite RG, Esi, Z.add_0_r by discriminate; apply Z.mod_small; clear - A1 A3; lia|exact A2|]. rewrite MM by (unfold xoff in Oa; clear - Oa D24; lia). rewrite (e_head P m0 pa sa ta la Fa).
  apply (t_ld lay ra _ _ _ _ pb); [rg; rewrite RG, Edx, Z.add_0_r by discriminate; apply Z.mod_small; clear - B1 B3; lia|exact B2|]. rg. rewrite MM by (unfold xoff in Ob; clear - Ob D24; lia). rewrite (e_head P m0 pb sb' tb lb Fb).
  match goal with |- tw _ _ _ _ (?mm, _) => set (m1 := mm) end.
  assert (S1 : Start m1). { split; [clear - F WR WRb; destruct F as (STF & SVF); split; [unfold m1; stt STF|exact SVF]|]. unfold m1. rg. rewrite !RG by discriminate. split; [exact Esi|]. split; [exact Edx|]. split; [reflexivity|]. split; [reflexivity|]. apply MM. clear - OP D24. lia. }
  clearbody m1. clear m ST SV RG MM F. pose proof S1 as (_ & _ & _ & E3 & E4 & _).
  apply t_btc; rewrite E3, word_63 by exact Ta; intros f1 T.
  - do 2 (eapply tw_cons; [reflexivity|]). apply t_over; [nl|]. apply t_hit.
    apply t_btc; rg; rewrite E4, word_63 by exact Tb'; intros f2 Tb.
    + do 2 (eapply tw_cons; [reflexivity|]). do 2 (apply t_over; [nl|]). apply t_miss; [reflexivity|]. do 3 (apply t_over; [nl|]). apply t_miss; [reflexivity|]. do 2 (eapply tw_cons; [reflexivity|]). do 2 (apply t_over; [nl|]). apply t_miss; [reflexivity|]. do 3 (apply t_over; [nl|]). apply t_hit.
      apply t_btc; rg; rewrite E3, word_62 by exact Ta; intros f3 M.
      * do 2 (eapply tw_cons; [reflexivity|]). do 2 (apply t_over; [nl|]). apply t_miss; [reflexivity|]. do 3 (apply t_over; [nl|]). apply t_hit.
        apply t_btc; rg; rewrite E4, word_62 by exact Tb'; intros f4 Mb.
        -- do 3 (apply t_over; [nl|]). apply t_hit. apply s_type; [apply start_f, start_f, start_f, start_f, S1|]. intros m2 (HT & X1 & X2 & X3 & X4). pose proof HT as (F2 & s0 & Hs0 & HW).
           eapply (k_a _ pa sa ta la va Fa Oa (apMA T M) (NA T) Ra 24); [reflexivity|lia|exact cD1|exact F2|exact X1|]. intros m3 (F3 & Y1 & Y2 & Y3 & Y4 & Y5).
           eapply (k_b _ pb sb' tb lb vb Fb Ob (apMB Tb Mb) (NB Tb) Rb c2); [exact c2_al|exact c2_24|exact cD|exact F3|rewrite Y2; exact X2|]. intros m4 (F4 & Z1 & Z2 & Z3 & Z4 & Z5).
           rewrite <- (app_nil_r (binL1L2 n o)). eapply (b_LL o (c2 + N8) m4 s0 F4); [|exact Hs0|rewrite Z2; exact Y1|exact Z1|apply Z4, Y3|exact Z3|reflexivity]. rewrite Z5, Y5 by (clear - OP; lia). exact HW.
        -- apply s_type; [apply start_f, start_f, start_f, start_f, S1|]. intros m2 (HT & X1 & X2 & X3 & X4). pose proof HT as (F2 & s0 & Hs0 & HW).
           eapply (k_a _ pa sa ta la va Fa Oa (apMA T M) (NA T) Ra 24); [reflexivity|lia|exact cD1|exact F2|exact X1|]. intros m3 (F3 & Y1 & Y2 & Y3 & Y4 & Y5).
           eapply (b_LL o c2 m3 s0 F3); [|exact Hs0|exact Y1|rewrite Y2; exact X2|exact Y3|apply Y4, heldB; assumption|nl]. rewrite Y5 by (clear - OP; lia). exact HW.
      * apply t_btc; rg; rewrite E4, word_62 by exact Tb'; intros f4 Mb.
        -- do 2 (apply t_over; [nl|]). apply t_hit. apply s_type; [apply start_f, start_f, start_f, start_f, S1|]. intros m2 (HT & X1 & X2 & X3 & X4). pose proof HT as (F2 & s0 & Hs0 & HW).
           eapply (k_b _ pb sb' tb lb vb Fb Ob (apMB Tb Mb) (NB Tb) Rb 24); [reflexivity|lia|exact cD1|exact F2|exact X2|]. intros m3 (F3 & Y1 & Y2 & Y3 & Y4 & Y5).
           eapply (b_LL o c2 m3 s0 F3); [|exact Hs0|rewrite Y2; exact X1|exact Y1|apply Y4, heldA; assumption|exact Y3|nl]. rewrite Y5 by (clear - OP; lia). exact HW.
        -- apply s_type; [apply start_f, start_f, start_f, start_f, S1|]. intros m2 (HT & X1 & X2 & X3 & X4). pose proof HT as (F2 & s0 & Hs0 & HW).
           eapply (b_LL o 24 m2 s0 F2 HW Hs0); [exact X1|exact X2|apply heldA; assumption|apply heldB; assumption|nl].
    + apply t_btc; rg; rewrite E3, word_62 by exact Ta; intros f3 M.
      * do 2 (apply t_over; [nl|]). apply t_hit. apply s_type; [apply start_f, start_f, start_f, S1|]. intros m2 (HT & X1 & X2 & X3 & X4). pose proof HT as (F2 & s0 & Hs0 & HW).
        eapply (k_a _ pa sa ta la va Fa Oa (apMA T M) (NA T) Ra 24); [reflexivity|lia|exact cD1|exact F2|exact X1|]. intros m3 (F3 & Y1 & Y2 & Y3 & Y4 & Y5).
        eapply (b_LS c2 m3 c2_al c2_24 cD (typed_ext m2 m3 Y5 F3 HT)); [discriminate|discriminate|discriminate|exact Tb|intros N; apply apB; assumption|rewrite Y2; exact X2|apply (low_ext m2); assumption|exact Y1|exact Y3|nl].
      * apply s_type; [apply start_f, start_f, start_f, S1|]. intros m2 (HT & X1 & X2 & X3 & X4).
        eapply (b_LS 24 m2 eq_refl ltac:(lia) cD1 HT); [discriminate|discriminate|discriminate|exact Tb|intros N; apply apB; assumption|exact X2|exact X4|exact X1|apply heldA; [apply HT|exact T|exact M]|nl].
  - apply t_btc; rg; rewrite E4, word_63 by exact Tb'; intros f2 Tb.
    + apply t_over; [nl|]. apply t_miss; [reflexivity|]. do 4 (eapply tw_cons; [reflexivity|]). do 2 (apply t_over; [nl|]). apply t_miss; [reflexivity|]. do 3 (apply t_over; [nl|]). apply t_hit.
      apply t_btc; rg; rewrite E4, word_62 by exact Tb'; intros f3 Mb.
      * do 2 (apply t_over; [nl|]). apply t_hit. apply s_type; [apply start_f, start_f, start_f, S1|]. intros m2 (HT & X1 & X2 & X3 & X4). pose proof HT as (F2 & s0 & Hs0 & HW).
        eapply (k_b _ pb sb' tb lb vb Fb Ob (apMB Tb Mb) (NB Tb) Rb 24); [reflexivity|lia|exact cD1|exact F2|exact X2|]. intros m3 (F3 & Y1 & Y2 & Y3 & Y4 & Y5).
        eapply (b_SL c2 m3 c2_al c2_24 cD (typed_ext m2 m3 Y5 F3 HT)); [discriminate|discriminate|discriminate|exact T|intros N; apply apA; assumption|rewrite Y2; exact X1|apply (low_ext m2); assumption|exact Y1|exact Y3|nl].
      * apply s_type; [apply start_f, start_f, start_f, S1|]. intros m2 (HT & X1 & X2 & X3 & X4).
        eapply (b_SL 24 m2 eq_refl ltac:(lia) cD1 HT); [discriminate|discriminate|discriminate|exact T|intros N; apply apA; assumption|exact X1|exact X3|exact X2|apply heldB; [apply HT|exact Tb|exact Mb]|nl].
    + apply R_SS; [apply start_f, start_f, S1|exact T|exact Tb|discriminate|nl].
Qed.
Lemma bin_call : exists m' L, f_bin lay ra n opt o m0 = Some m' /\ valRes W L /\ Cres D K pr L m0 m'.
Proof. apply (X86TAdd.t_call P lay ra) with (code := asm_bin lay ra n opt o); [exact bin_tw|reflexivity]. Qed.
End Two.
(** *** bnot *)
Section One.
Hypothesis HQ : 2 ^ 32 < q.
Hypothesis N12 : neededFor n opt <> 12%nat.
Hypothesis N7 : n <> 7%nat.
Variables pa sa ta : Z.
Variable la : list Z.
Variable va : Z.
Hypothesis Fa : xfields n m0 pa sa ta la.
Hypothesis Va : denotes q n sa ta la va.
Hypothesis Oa : xoff D m0 pa K.
Hypothesis Sa : pa = pr \/ xapart n pa pr.
Hypothesis Esi : regs m0 RSI = pa.
Hypothesis ALa : pa = pr -> tlong ta = true /\ tmont ta = false.
Notation R1 := (v_range q P sa ta la va Va).
Notation W := (fold_q (Z.lnot va)).
Definition notLoop : list tinstr := flat_map (fun i => [X (I Imov [OReg RAX; at8 RSI (i + 1)]); Not64 RAX] ++ maskLast n i ++ [X (I Imov [at8 RDI (i + 1); OReg RAX])]) (seq 0 n).
Lemma not_range x : 0 <= x < B -> 0 <= B - 1 - x < B. Proof. lia. Qed.
Lemma b_not c m s0 p : FS 1 c m -> mem m pr = word_of s0 (128 * 2 ^ 24) -> is_int32 s0 -> regs m RSI = p -> held c m p va -> tw lay ra (notLoop ++ binEnd n) (Res (valRes W)) (m, None).
Proof.
  intros HS HW Hs0 E1 Ha. pose proof Ha as (A1 & A2 & A3 & A4 & _ & _). pose proof (wm c m HS) as W0. unfold notLoop.
  set (g := fun i => msk i (B - 1 - lim m p i)). apply (store_loop lay ra m pd _ g n 0).
  - intros i Hi m' rest Q U K'. pose proof U as (W & A & UT & _). rewrite <- app_assoc. cbn [app]. replace (i + 1)%nat with (S i) by lia. apply t_X1. eapply w_ld; [apply at8_S with (n := n) (p := p); [rewrite A by discriminate; exact E1|exact A1|exact A2|lia]|]. apply ww_nil.
    rewrite (held_lim c m m' p va i Ha UT) by lia. set (m1 := setr m' RAX _). assert (W1 : words m1) by (apply words_setr; [exact W|apply W0]). assert (G1 : agree m m1) by (apply agree_rax, A).
    eapply tw_cons; [reflexivity|]. assert (EX : regs m1 RAX = lim m p i) by (unfold m1; cbn [setr regs]; apply rupd_eq). rewrite EX.
    rewrite <- app_assoc. cbn [app]. replace (S i) with (i + 1)%nat by lia.
    eapply (t_store c m g i _ _ rest Q HS); [lia|split; [apply words_setr; [exact W1|apply not_range, W0]|split; [apply agree_rax, G1|split; [exact UT|apply U]]]|cbn [setr regs]; rewrite rupd_eq; reflexivity|reflexivity|]. intros m2 X1 X2 X3. apply K'; assumption.
  - split; [exact W0|]. split; [apply agree_refl|]. split; [intros z _; reflexivity|intros j Hj; lia].
  - intros m2 U. rewrite <- (app_nil_r (binEnd n)). apply (r_end g (Z.lnot va) c m m2 s0); [exact HS|exact HW|exact Hs0|exact U| |reflexivity].
    unfold g. rewrite (es_msk (fun i => B - 1 - lim m p i)) by (intros j Hj; apply not_range, W0). rewrite es_not. change (es (lim m p) n) with (vals m (p + 8) n). rewrite A3.
    destruct (bits_le_R q P OK) as [k Hk]. unfold Rad in Hk. rewrite Hk. unfold Z.lnot. rewrite <- (Z.mod_add (Z.pred (- va)) k) by (pose proof (two_bits q P OK); lia). f_equal. lia.
Qed.
Lemma bnot_tw : tw lay ra (asm_bnot lay ra n opt) (Res (valRes W)) (m0, None).
Proof.
  pose proof (e_ptr q P OK m0 pa sa ta la Fa) as (A1 & A2 & A3). pose proof Opr as OP. pose proof D_24 as D24. pose proof (e_type q P sa ta la va Va) as Ta. assert (H64 : sb + 16 * Z.of_nat (S n) + 64 <= D) by (clear - HD; lia).
  unfold asm_bnot. fold notLoop. apply (b_enter P lay ra m0 D Rdy pr K Opr Bpr D_24). rewrite Edi. intros m ST SV RG MM. pose proof (word_range sa ta Ta) as WR.
  assert (F : FS 1 24 m) by (apply (X86TAdd.fs_mono P lay m0 D pr Dst 0 1); [clear; lia|split; assumption]). assert (ME : mem m pr = mem m0 pr) by (apply MM; clear - OP D24; lia).
  apply (b_setT' 24); [clear; lia|exact F|]. intros m1 F1 Y1 Y2 Y3. cbn [app].
  assert (HA : exists s' t', mem m1 pa = word_of s' t' /\ isType t' /\ tlong t' = tlong ta /\ tmont t' = tmont ta).
  { destruct Sa as [E|A].
    - exists (sx32 (mem m pr)), (128 * 2 ^ 24). rewrite E. split; [exact Y1|]. destruct (ALa E) as [-> ->]. split; [unfold isType; tauto|split; reflexivity].
    - exists sa, ta. split; [|auto]. rewrite <- (e_head P m0 pa sa ta la Fa). rewrite Y3 by (unfold xapart in A; clear - A; lia). apply MM. unfold xoff in Oa. clear - Oa D24. lia. }
  destruct HA as (s' & t' & EA & T' & TL & TM). pose proof (word_range s' t' T') as WR'.
  apply (t_ld lay ra _ _ _ _ pa); [rewrite Y2, RG, Esi, Z.add_0_r by discriminate; apply Z.mod_small; clear - A1 A3; lia|exact A2|]. rewrite EA. set (m2 := setr m1 RAX _).
  assert (F2 : FS 1 24 m2) by (clear - F1 WR'; destruct F1 as (STF & SVF); split; [unfold m2; stt STF|exact SVF]). assert (E2 : regs m2 RSI = pa) by (unfold m2; rg; rewrite Y2, RG by discriminate; exact Esi). assert (M2 : mem m2 pr = word_of (sx32 (mem m pr)) (128 * 2 ^ 24)) by exact Y1. assert (EX : regs m2 RAX = word_of s' t') by (unfold m2; rg; reflexivity). clearbody m2.
  assert (C1 : 24 + N8 + 32 + sb <= D) by (clear - HD; lia).
  apply t_btc; rewrite EX, word_63, TL by exact T'; intros f T.
  - apply t_over; [reflexivity|]. eapply tw_cons; [reflexivity|]. apply t_hit. apply t_btnc; rg; rewrite EX, word_62, TM by exact T'; intros f2 M.
    + apply t_over; [reflexivity|]. apply t_hit. eapply (b_not 24); [exact F2|exact M2|apply sx32_range|exact E2|]. destruct F2 as ((I2 & _) & _). eapply (held_user 24 1); [lia|exact I2|exact Fa|exact Oa|exact Sa|exact (v_long q P m0 pa sa ta la va Fa Va T M)|exact R1].
    + assert (AP : xapart n pa pr) by (destruct Sa as [E|A]; [destruct (ALa E); congruence|exact A]).
      eapply (k_a _ pa sa ta la va Fa Oa AP (cv_norm q P OK lay ra Hra D H64 N12 N7 pa sa ta la va Va T) R1 24); [reflexivity|lia|exact C1|exact F2|exact E2|]. intros m3 (F3 & Z1 & _ & Z3 & _ & Z5). apply t_lab.
      eapply (b_not (24 + N8)); [exact F3|rewrite Z5 by (clear - OP; lia); exact M2|apply sx32_range|exact Z1|exact Z3].
  - assert (AP : xapart n pa pr) by (destruct Sa as [E|A]; [destruct (ALa E); congruence|exact A]).
    eapply (k_a _ pa sa ta la va Fa Oa AP (cv_long q P OK lay ra Hra D H64 HQ N12 N7 pa sa ta la va Va) R1 24); [reflexivity|lia|exact C1|exact F2|exact E2|]. intros m3 (F3 & Z1 & _ & Z3 & _ & Z5).
    apply t_jmp. eapply tw_cons; [reflexivity|]. do 2 (eapply tw_cons; [reflexivity|]). apply t_over; [reflexivity|]. apply t_hit.
    eapply (b_not (24 + N8)); [exact F3|rewrite Z5 by (clear - OP; lia); exact M2|apply sx32_range|exact Z1|exact Z3].
Qed.
Lemma bnot_call : exists m' L, f_bnot lay ra n opt m0 = Some m' /\ valRes W L /\ Cres D K pr L m0 m'.
Proof. apply (X86TAdd.t_call P lay ra) with (code := asm_bnot lay ra n opt); [exact bnot_tw|reflexivity]. Qed.
End One.
End Bit.
