(** rawShr and rawShl. *)
From Coq Require Import ZArith List Bool Arith Lia.
From Coq Require Znumtheory.
From Verif Require Import Limbs LimbsFacts X86 X86Sim X86Mont X86Call X86Raw X86RawFacts X86RawFacts2 X86RawFacts3 X86T X86TWords X86TFacts X86THelp X86THelp2 X86TInv X86TLoop X86TBitLoop X86TShiftVal X86TCmp.
Import ListNotations.
Open Scope Z_scope.

(** *** rules *)
Section Rules.
Variable lay : sym -> Z.
Variable ra : Z.
Notation tw := (tw lay ra).
Lemma t_cmpi m r v code Q : 0 <= regs m r < B -> 0 <= v < B -> (forall f, cf f = (regs m r <? v) -> zf f = (regs m r =? v) -> tw code Q (setf m f, None)) -> tw (cmpi r v :: code) Q (m, None).
Proof.
  intros H1 H2 H. eapply tw_cons; [|apply H]; cycle 1; [| |unfold cmpi; cbn [tstep step]; unfold exec; cbn [encodable is_reg is_mem orb andb negb rds rd sem]; unfold subf; cbn [wrs wr]; reflexivity].
  - cbn [cf]. destruct (Z.ltb_spec (regs m r - v - 0) 0), (Z.ltb_spec (regs m r) v); try reflexivity; lia.
  - cbn [zf]. apply eq_mod; assumption.
Qed.
Lemma t_jz m l code Q : (zf (fl m) = true -> tw code Q (m, Some l)) -> (zf (fl m) = false -> tw code Q (m, None)) -> tw (jz l :: code) Q (m, None).
Proof. intros H1 H2. eapply tw_cons; [reflexivity|]. cbn [holds_cond]. destruct (zf (fl m)); auto. Qed.
Lemma t_jnz m l code Q : (zf (fl m) = false -> tw code Q (m, Some l)) -> (zf (fl m) = true -> tw code Q (m, None)) -> tw (jnz l :: code) Q (m, None).
Proof. intros H1 H2. eapply tw_cons; [reflexivity|]. cbn [holds_cond]. destruct (zf (fl m)); auto. Qed.
Lemma t_and m d s code Q : (forall f, tw code Q (setf (setr m d (Z.land (regs m d) (regs m s))) f, None)) -> tw (And64 d s :: code) Q (m, None).
Proof. intros H. eapply tw_cons; [reflexivity|apply H]. Qed.
Lemma t_or m d s code Q : (forall f, tw code Q (setf (setr m d (Z.lor (regs m d) (regs m s))) f, None)) -> tw (Or64 d s :: code) Q (m, None).
Proof. intros H. eapply tw_cons; [reflexivity|apply H]. Qed.
Lemma t_not m d code Q : tw code Q (setr m d (B - 1 - regs m d), None) -> tw (Not64 d :: code) Q (m, None).
Proof. intros H. eapply tw_cons; [reflexivity|exact H]. Qed.
Lemma t_sub m d s code Q : (forall f, tw code Q (setf (setr m d ((regs m d - regs m s) mod B)) f, None)) -> tw (X (I Isub [OReg d; OReg s]) :: code) Q (m, None).
Proof. intros H. eapply tw_cons; [|apply H]. cbn [tstep step]. unfold exec. cbn [encodable is_reg is_mem orb andb negb rds rd sem]. unfold subf. cbn [wrs wr]. rewrite Z.sub_0_r. reflexivity. Qed.
Lemma t_shrI m d k code Q : (forall f, zf f = (regs m d / 2 ^ k =? 0) -> tw code Q (setf (setr m d (regs m d / 2 ^ k)) f, None)) -> tw (Sh (ShrI d k) :: code) Q (m, None).
Proof. intros H. eapply tw_cons; [reflexivity|apply H; reflexivity]. Qed.
Lemma t_shrCl m d c code Q : regs m RCX mod 256 = c -> 0 < c < 64 -> (forall f, tw code Q (setf (setr m d (regs m d / 2 ^ c)) f, None)) -> tw (Sh (ShrCl d) :: code) Q (m, None).
Proof. intros E Hc H. eapply tw_cons; [reflexivity|]. rewrite E, (Z.mod_small c 64) by lia. destruct (Z.eqb_spec c 0); [lia|apply H]. Qed.
Lemma t_shlCl m d c code Q : regs m RCX mod 256 = c -> 0 < c < 64 -> (forall f, tw code Q (setf (setr m d (regs m d * 2 ^ c mod B)) f, None)) -> tw (Sh (ShlCl d) :: code) Q (m, None).
Proof. intros E Hc H. eapply tw_cons; [reflexivity|]. rewrite E, (Z.mod_small c 64) by lia. destruct (Z.eqb_spec c 0); [lia|apply H]. Qed.
Lemma rol_val c e : 0 <= c < 256 -> 0 <= e < 256 -> let v := c + 256 * e in let v1 := v - v mod 256 + v / 256 mod 256 in v1 - v1 / 256 mod 256 * 256 + v mod 256 * 256 = e + 256 * c.
Proof.
  intros Hc He. cbv zeta. assert (E1 : (c + 256 * e) mod 256 = c) by (rewrite Z.mul_comm, Z.mod_add, Z.mod_small by lia; reflexivity). assert (E2 : (c + 256 * e) / 256 = e) by (rewrite Z.mul_comm, Z.div_add, Z.div_small by lia; lia).
  rewrite E1, E2, (Z.mod_small e) by lia. replace (c + 256 * e - c + e) with (e + e * 256) by lia. rewrite Z.div_add, Z.div_small, (Z.mod_small (0 + e)) by lia. lia.
Qed.
Lemma t_rol m c e code Q : regs m RCX = c + 256 * e -> 0 <= c < 256 -> 0 <= e < 256 -> (forall m2, mem m2 = mem m -> (forall r, r <> RCX -> regs m2 r = regs m r) -> regs m2 RCX = e + 256 * c -> tw code Q (m2, None)) -> tw (Sh RolCx8 :: code) Q (m, None).
Proof.
  intros E Hc He H. eapply tw_cons; [reflexivity|]. apply H.
  - reflexivity.
  - intros r Hr. unfold setb1, setb0. cbn [setf setr regs]. rewrite !rupd_neq by exact Hr. reflexivity.
  - unfold setb1, setb0. cbn [setf setr regs]. rewrite !rupd_eq, E. apply rol_val; assumption.
Qed.
Lemma mod_ce c e : 0 <= c < 256 -> (c + 256 * e) mod 256 = c.
Proof. intros H. rewrite Z.mul_comm, Z.mod_add, Z.mod_small by lia. reflexivity. Qed.
(** shifting by the count in ch *)
Definition sval (l : bool) (x e : Z) : Z := if l then x * 2 ^ e mod B else x / 2 ^ e.
Lemma t_ch l m d c e code Q : d <> RCX -> regs m RCX = c + 256 * e -> 0 <= c < 256 -> 0 < e < 64 ->
  (forall m2, mem m2 = mem m -> (forall r, r <> d -> regs m2 r = regs m r) -> regs m2 d = sval l (regs m d) e -> tw code Q (m2, None)) -> tw (Sh RolCx8 :: Sh (if l then ShlCl d else ShrCl d) :: Sh RolCx8 :: code) Q (m, None).
Proof.
  intros Nd E Hc He H. apply (t_rol m c e); [exact E|exact Hc|lia|]. intros m1 M1 R1 C1.
  assert (K : forall f, tw (Sh RolCx8 :: code) Q (setf (setr m1 d (sval l (regs m1 d) e)) f, None)).
  { intros f. apply (t_rol _ e c); [cbn [setf setr regs]; rewrite rupd_neq by congruence; exact C1|lia|exact Hc|]. intros m2 M2 R2 C2. cbn [setf setr regs mem] in *. apply H.
    - rewrite M2. exact M1.
    - intros r Hr. destruct (reg_dec r RCX) as [->|Nr]; [rewrite C2, E; reflexivity|]. rewrite R2, rupd_neq by assumption. apply R1, Nr.
    - rewrite R2, rupd_eq by exact Nd. rewrite R1 by exact Nd. reflexivity. }
  destruct l; [apply t_shlCl with e|apply t_shrCl with e]; try exact K; try lia; rewrite C1; apply mod_ce; lia.
Qed.
Lemma t_idx m d b off a code Q : (regs m b + regs m R8 * 8 + off) mod B = a -> a mod 8 = 0 -> tw code Q (setr m d (mem m a), None) -> tw (Sh (LdIdx d b off) :: code) Q (m, None).
Proof. intros E1 E2 H. eapply tw_cons; [|exact H]. cbn [tstep texec exec_sh]. rewrite E1, E2. reflexivity. Qed.
Lemma tnolab_flat l (f : nat -> list tinstr) L : (forall i, tnolab l (f i) = true) -> tnolab l (flat_map f L) = true.
Proof. intros H. induction L as [|i L IH]; [reflexivity|]. cbn [flat_map]. rewrite tnolab_app, H, IH. reflexivity. Qed.
Lemma Forall_flat_in {A} (P : A -> Prop) (f : nat -> list A) L : (forall i, In i L -> Forall P (f i)) -> Forall P (flat_map f L).
Proof. induction L as [|i L IH]; intros H; [constructor|]. cbn [flat_map]. apply Forall_app. split; [apply H; left; reflexivity|apply IH; intros j Hj; apply H; right; exact Hj]. Qed.
Lemma tw_words code Q s : words (fst s) -> Forall tok code -> tw code Q s -> tw code (fun s => Q s /\ words (fst s)) s.
Proof. intros W F (s' & E & H). exists s'. split; [exact E|]. split; [exact H|]. exact (trun_words lay ra code s s' W F E). Qed.
End Rules.

(** *** the limbs in any order *)
Section Any.
Variable lay : sym -> Z.
Variable ra : Z.
Variable ms : mach.
Variable pd : Z.
Notation dst j := (pd + 8 * Z.of_nat j).
Definition agree2 (m' : mach) : Prop := forall r, r <> RAX -> r <> R11 -> regs m' r = regs ms r.
Variables (f : nat -> list tinstr) (g : nat -> Z).
Definition Upto (S : list nat) (m' : mach) : Prop := agree2 m' /\ (forall y, (forall j, In j S -> y <> dst j) -> mem m' y = mem ms y) /\ (forall j, In j S -> mem m' (dst j) = g j).
Definition stored1 (m' : mach) (i : nat) (s : X86RawFacts.st) : Prop := snd s = None /\ agree2 (fst s) /\ mem (fst s) = mupd (mem m') (dst i) (g i).
Variable before : nat -> nat -> Prop.
Definition storesA (i : nat) : Prop := forall S m', Upto S m' -> (forall j, In j S -> before j i) -> tw lay ra (f i) (stored1 m' i) (m', None).
Lemma any_loop : forall L S m', (forall i, In i L -> storesA i) -> ForallOrdPairs before L -> (forall j i, In j S -> In i L -> before j i) -> Upto S m' ->
  tw lay ra (flat_map f L) (fun s => snd s = None /\ Upto (S ++ L) (fst s)) (m', None).
Proof.
  induction L as [|i L IH]; intros S m' H O HS U; cbn [flat_map].
  - apply tw_nil. rewrite app_nil_r. split; [reflexivity|exact U].
  - apply tw_app. inversion O as [|a b F O']; subst. eapply tw_mono; [|apply (H i ltac:(left; reflexivity) S m' U); intros j Hj; apply HS; [exact Hj|left; reflexivity]].
    intros [m2 sk] (K1 & K2 & K3). cbn [fst snd] in *. subst sk. replace (S ++ i :: L) with ((S ++ [i]) ++ L) by (rewrite <- app_assoc; reflexivity). apply IH.
    + intros j Hj. apply H. right. exact Hj.
    + exact O'.
    + intros j k Hj Hk. apply in_app_iff in Hj. destruct Hj as [Hj|[<-|[]]]; [apply HS; [exact Hj|right; exact Hk]|]. rewrite Forall_forall in F. apply F, Hk.
    + destruct U as (U1 & U2 & U3). split; [exact K2|]. split.
      * intros y Hy. rewrite K3, mupd_neq by (apply Hy, in_app_iff; right; left; reflexivity). apply U2. intros j Hj. apply Hy, in_app_iff. left. exact Hj.
      * intros j Hj. rewrite K3. destruct (Nat.eq_dec j i) as [->|N]; [apply mupd_eq|]. rewrite mupd_neq by lia. apply U3. apply in_app_iff in Hj. destruct Hj as [Hj|[E|[]]]; [exact Hj|congruence].
Qed.
End Any.
Lemma fop_seq o k : ForallOrdPairs lt (seq o k).
Proof. revert o. induction k as [|k IH]; intros o; cbn [seq]; constructor; [|apply IH]. apply Forall_forall. intros j Hj. apply in_seq in Hj. lia. Qed.
Lemma fop_rev n N : (n <= N)%nat -> ForallOrdPairs (fun j i => (j < N)%nat /\ (j > i)%nat) (rev (seq 0 n)).
Proof.
  induction n as [|n IH]; intros H; [constructor|]. rewrite seq_S, rev_app_distr. cbn [rev app]. constructor; [|apply IH; lia]. apply Forall_forall. intros j Hj. apply in_rev, in_seq in Hj. lia.
Qed.
Ltac rg := cbn [regs setr setm setf mem fl]; unfold rupd; cbn [reg_eqb].
Ltac toks := repeat first [apply Forall_cons | apply Forall_nil]; cbn [tok cmpi jnc jnz jz idx ld lab jmp zero X86T.st instr_ok sh_ok imm_ok]; repeat first [exact Logic.I | apply Forall_cons | apply Forall_nil | progress cbn [imm_ok] | lia].

Notation clobS := [RAX; RCX; RDX; R8; R9; R10; R11].
Section Raw.
Variable lay : sym -> Z.
Variable ra : Z.
Variable n : nat.
Variable bl : Z.
Variable m : mach.
Variables pd px : Z.
Hypothesis Hm : words m.
Hypothesis Hn : (1 <= n)%nat.
Hypothesis Ed : regs m RDI = pd.
Hypothesis Es : regs m RSI = px.
Hypothesis Pd : X86RawFacts.ptr pd n.
Hypothesis Px : X86RawFacts.ptr px n.
Hypothesis SA : same_or_apart n px pd.
Hypothesis Hret : forall j, (j < n)%nat -> regs m RSP <> pd + 8 * Z.of_nat j.
Hypothesis Hbl : 0 < bl < 2 ^ 32.
Hypothesis Hbn : bl <= 64 * Z.of_nat n.
Notation dst j := (pd + 8 * Z.of_nat j).
Notation src j := (px + 8 * Z.of_nat j).
Notation tw := (tw lay ra).
Definition xl (i : nat) : Z := if (i <? n)%nat then mem m (src i) else 0.
Lemma xl_rng i : 0 <= xl i < B. Proof. unfold xl. pose proof B_pos. destruct (i <? n)%nat; [apply Hm|lia]. Qed.
Lemma xl_hi i : (n <= i)%nat -> xl i = 0. Proof. intros H. unfold xl. destruct (Nat.ltb_spec i n); [lia|reflexivity]. Qed.
Lemma xl_val : es xl n = vals m px n. Proof. apply es_ext. intros j Hj. unfold xl. destruct (Nat.ltb_spec j n); [reflexivity|lia]. Qed.
(** what follows the head: nothing written yet *)
Definition kept (ms : mach) : Prop := words ms /\ mem ms = mem m /\ agreeC m clobS ms.
Lemma kept_r ms r : kept ms -> ~ In r clobS -> regs ms r = regs m r. Proof. intros (_ & _ & H). apply H. Qed.
Lemma kept_f ms f : kept ms -> kept (setf ms f). Proof. intros H. exact H. Qed.
Lemma kept_set ms r v : kept ms -> In r clobS -> 0 <= v < B -> kept (setr ms r v).
Proof. intros (H1 & H2 & H3) Hr Hv. split; [apply words_setr; assumption|]. split; [exact H2|]. intros r' Hr'. cbn [setr regs]. rewrite rupd_neq by congruence. apply H3, Hr'. Qed.
(** reading a source limb *)
Lemma src_same ms S m' g i : kept ms -> Upto ms pd g S m' -> (i < n)%nat -> (forall j, In j S -> (j < n)%nat /\ j <> i) -> mem m' (src i) = xl i.
Proof.
  intros (K1 & K2 & K3) (U1 & U2 & U3) Hi HS. rewrite U2, K2; [unfold xl; destruct (Nat.ltb_spec i n); [reflexivity|lia]|]. intros j Hj. specialize (HS j Hj). destruct SA as [E|A]; [lia|unfold apart in A; lia].
Qed.
Lemma src_al i : src i mod 8 = 0. Proof. apply al8, Px. Qed.
Lemma t_stl ms m' g i v code Q : agree2 ms m' -> kept ms -> (i < n)%nat -> regs m' RAX = v -> v = g i -> (forall m2, agree2 ms m2 -> mem m2 = mupd (mem m') (dst i) (g i) -> tw code Q (m2, None)) -> tw (X86T.st RDI (o8 i) RAX :: code) Q (m', None).
Proof.
  intros A Kp Hi Ev Eg H. destruct Pd as (P1 & P2 & P3). apply t_st with (dst i); [|apply al8, P2|].
  - rewrite A, (kept_r _ _ Kp), Ed by (try discriminate; cbn; intuition discriminate). unfold o8. rewrite (Z.mul_comm _ 8). apply Z.mod_small. lia.
  - apply H; [exact A|]. cbn [setm mem]. rewrite Ev, Eg. reflexivity.
Qed.
Lemma agree2_set ms m' r v : agree2 ms m' -> r = RAX \/ r = R11 -> agree2 ms (setr m' r v).
Proof. intros A Hr r' H1 H2. cbn [setr regs]. rewrite rupd_neq by (destruct Hr; congruence). apply A; assumption. Qed.
Lemma agree2_f ms m' f : agree2 ms m' -> agree2 ms (setf m' f). Proof. intros H. exact H. Qed.

(** *** shr *)
Section Shr.
Variable ms : mach.
Hypothesis Kp : kept ms.
Variable w : nat.
Hypothesis E8 : regs ms R8 = Z.of_nat w.
Hypothesis Hw : (w < n)%nat.
Lemma wn_B : Z.of_nat n < B. Proof. destruct Pd as (P1 & P2 & P3). lia. Qed.
Lemma t_ldx m' S g i d code Q : Upto ms pd g S m' -> (i + w < n)%nat -> (forall j, In j S -> (j < n)%nat /\ j <> (i + w)%nat) -> tw code Q (setr m' d (xl (i + w)), None) -> tw (idx d i :: code) Q (m', None).
Proof.
  intros U Hi HS H. pose proof U as (A & _). destruct Px as (P1 & P2 & P3). unfold idx. apply t_idx with (src (i + w)); [|apply src_al|].
  - rewrite !A, E8, (kept_r _ _ Kp), Es by (try discriminate; cbn; intuition discriminate). unfold o8. rewrite Z.mod_small; lia.
  - rewrite (src_same ms S m' g); assumption.
Qed.
Definition gr (c : Z) (i : nat) : Z := xl (i + w) / 2 ^ c + 2 ^ (64 - c) * (xl (i + w + 1) mod 2 ^ c).
Lemma gr_hi c i : (n <= i + w)%nat -> gr c i = 0.
Proof. intros H. unfold gr. rewrite !xl_hi by lia. rewrite Zdiv_0_l, Zmod_0_l. lia. Qed.
Lemma stored_done m' m2 g i : agree2 ms m2 -> mem m2 = mupd (mem m') (dst i) (g i) -> stored1 ms pd g m' i (m2, None).
Proof. intros H1 H2. split; [reflexivity|]. split; assumption. Qed.
Lemma shr_store c i : 0 < c < 64 -> regs ms RCX = c + 256 * (64 - c) -> regs ms R9 = 2 ^ (64 - c) - 1 -> regs ms R10 = B - 1 - (2 ^ (64 - c) - 1) -> (i < n)%nat -> storesA lay ra ms pd (shrLimb n) (gr c) lt i.
Proof.
  intros Hc E1 E9 E10 Hi S m' U HS. pose proof U as (A & _). pose proof wn_B as HB. unfold shrLimb.
  assert (R8' : regs m' R8 = Z.of_nat w) by (rewrite A by discriminate; exact E8).
  apply t_cmpi; [lia|lia|]. intros f1 C1 Z1. rewrite R8' in C1, Z1. apply t_jnc; cbn [setf fl]; rewrite C1; intros C.
  - assert (G : (n - 1 - i <= w)%nat) by (destruct (Z.ltb_spec (Z.of_nat w) (Z.of_nat (n - 1 - i))); [discriminate|lia]).
    apply t_after with [jnz l_else; idx RAX i; Sh (ShrCl RAX); And64 RAX R9; X86T.st RDI (o8 i) RAX; jmp l_end; lab l_else; zero RAX; X86T.st RDI (o8 i) RAX; lab l_end]; [reflexivity|].
    apply t_jnz; cbn [setf fl]; rewrite Z1; intros Z.
    + assert (n - 1 - i < w)%nat by (destruct (Z.eqb_spec (Z.of_nat w) (Z.of_nat (n - 1 - i))); [discriminate|lia]). apply t_after with [zero RAX; X86T.st RDI (o8 i) RAX; lab l_end]; [reflexivity|]. apply t_zero. intros f2.
      eapply (t_stl ms _ (gr c)); [apply agree2_f, agree2_set; [exact A|auto]|exact Kp|exact Hi|reflexivity|cbn [setf setr regs]; rewrite rupd_eq; symmetry; apply gr_hi; lia|]. intros m2 A2 M2. apply t_lab, tw_nil, stored_done; [exact A2|exact M2].
    + assert (Ew : (i + w = n - 1)%nat) by (apply Z.eqb_eq in Z; lia). eapply (t_ldx _ S (gr c)); [exact U|lia|intros j Hj; specialize (HS j Hj); lia|]. rewrite Ew.
      apply t_shrCl with c; [cbn [setr setf regs]; rewrite rupd_neq, A, E1 by discriminate; apply mod_ce; lia|exact Hc|]. intros f2. apply t_and. intros f3. cbn [setf setr regs]. rewrite !rupd_eq, !(rupd_neq _ _ R9) by discriminate. rewrite A, E9 by discriminate.
      eapply (t_stl ms _ (gr c)); [apply agree2_f, agree2_set; [apply agree2_f, agree2_set; [apply agree2_set; [exact A|auto]|auto]|auto]|exact Kp|exact Hi|reflexivity|cbn [setf setr regs]; rewrite rupd_eq, mask_low by (try apply xl_rng; lia); unfold gr; rewrite Ew, (xl_hi (n - 1 + 1)), Zmod_0_l by lia; lia|].
      intros m2 A2 M2. apply t_jmp. apply t_after with []; [reflexivity|]. apply tw_nil, stored_done; [exact A2|exact M2].
  - assert (G : (i + w + 1 < n)%nat) by (destruct (Z.ltb_spec (Z.of_nat w) (Z.of_nat (n - 1 - i))); [lia|discriminate]).
    eapply (t_ldx _ S (gr c)); [exact U|lia|intros j Hj; specialize (HS j Hj); lia|].
    apply t_shrCl with c; [cbn [setr setf regs]; rewrite rupd_neq, A, E1 by discriminate; apply mod_ce; lia|exact Hc|]. intros f2. apply t_and. intros f3. cbn [setf setr regs]. rewrite !rupd_eq, !(rupd_neq _ _ R9) by discriminate. rewrite A, E9 by discriminate.
    set (m1 := setf _ f3). assert (A1 : agree2 ms m1) by (apply agree2_f, agree2_set; [apply agree2_f, agree2_set; [apply agree2_set; [exact A|auto]|auto]|auto]). assert (V1 : regs m1 RAX = Z.land (xl (i + w) / 2 ^ c) (2 ^ (64 - c) - 1)) by (unfold m1; cbn [setf setr regs]; apply rupd_eq).
    assert (U1 : Upto ms pd (gr c) S m1) by (destruct U as (_ & U2); split; [exact A1|exact U2]).
    eapply (t_ldx _ S (gr c)); [exact U1|lia|intros j Hj; specialize (HS j Hj); lia|]. change (Sh (ShlCl R11)) with (Sh (if true then ShlCl R11 else ShrCl R11)).
    apply t_ch with c (64 - c); [discriminate|cbn [setr regs]; rewrite rupd_neq, A1 by discriminate; exact E1|lia|lia|]. intros m2 M2 R2 V2. cbn [setr regs mem] in R2, M2, V2. rewrite rupd_eq in V2.
    assert (A2 : agree2 ms m2) by (intros r H1 H2; rewrite R2, rupd_neq by exact H2; apply A1; assumption).
    apply t_and. intros f4. apply t_or. intros f5. cbn [setf setr regs]. rewrite rupd_eq, (rupd_neq _ _ RAX) by discriminate. assert (V3 : regs m2 RAX = Z.land (xl (i + w) / 2 ^ c) (2 ^ (64 - c) - 1)) by (rewrite R2, rupd_neq by discriminate; exact V1). rewrite V2, V3, (A2 R10), E10 by discriminate. cbn [sval]. replace (i + 1 + w)%nat with (i + w + 1)%nat by lia. rewrite shr_limb by (try apply xl_rng; exact Hc).
    eapply (t_stl ms _ (gr c)); [apply agree2_f, agree2_set; [apply agree2_f, agree2_set; [exact A2|auto]|auto]|exact Kp|exact Hi|reflexivity|cbn [setf setr regs]; rewrite rupd_eq; reflexivity|].
    intros m3 A3 M3. apply t_jmp. apply t_after with []; [reflexivity|]. apply tw_nil, stored_done; [assumption|]. rewrite M3. cbn [setf setr mem]. rewrite M2. reflexivity.
Qed.
Lemma shr_store0 i : (i < n)%nat -> storesA lay ra ms pd (shrWord n) (gr 0) lt i.
Proof.
  intros Hi S m' U HS. pose proof U as (A & _). pose proof wn_B as HB. unfold shrWord.
  assert (R8' : regs m' R8 = Z.of_nat w) by (rewrite A by discriminate; exact E8).
  eapply t_cmpj; [reflexivity|reflexivity| |]; intros f1; cbn [scond_holds]; rewrite R8'; intros C.
  - apply t_after with [zero RAX; X86T.st RDI (o8 i) RAX; lab l_end]; [reflexivity|]. apply t_zero. intros f2.
    eapply (t_stl ms _ (gr 0)); [apply agree2_f, agree2_set; [exact A|auto]|exact Kp|exact Hi|reflexivity|cbn [setf setr regs]; rewrite rupd_eq; symmetry; apply gr_hi; apply Z.ltb_lt in C; lia|]. intros m2 A2 M2. apply t_lab, tw_nil, stored_done; [exact A2|exact M2].
  - apply Z.ltb_ge in C. eapply (t_ldx _ S (gr 0)); [exact U|lia|intros j Hj; specialize (HS j Hj); lia|].
    eapply (t_stl ms _ (gr 0)); [apply agree2_set; [exact A|auto]|exact Kp|exact Hi|reflexivity|cbn [setf setr regs]; rewrite rupd_eq; unfold gr; rewrite Z.div_1_r, Z.mod_1_r; lia|].
    intros m2 A2 M2. apply t_jmp. apply t_after with []; [reflexivity|]. apply tw_nil, stored_done; [exact A2|exact M2].
Qed.
End Shr.

(** *** shl *)
Section Shl.
Hypothesis Hbn0 : 64 * (Z.of_nat n - 1) < bl.
Definition lbo : Z := 2 ^ (bl - 64 * (Z.of_nat n - 1)) - 1.
Hypothesis ML : mem m (lay SlboMask) = lbo.
Hypothesis PL : X86RawFacts.ptr (lay SlboMask) 1.
Hypothesis DL : forall j, (j < n)%nat -> lay SlboMask <> dst j.
Variable ms : mach.
Hypothesis Kp : kept ms.
Variable w : nat.
Hypothesis E8 : regs ms R8 = Z.of_nat w.
Hypothesis Ex : regs ms RDX = (px - 8 * Z.of_nat w) mod B.
Hypothesis Hw : (w < n)%nat.
Definition mk (i : nat) (v : Z) : Z := if Nat.eqb i (n - 1) then Z.land v lbo else v.
Lemma t_ldy m' S g i off j d code Q : Upto ms pd g S m' -> off = 8 * Z.of_nat (j + w) -> (j < n)%nat -> (i >= j)%nat -> (forall k, In k S -> (k < n)%nat /\ (k > i)%nat) -> tw code Q (setr m' d (xl j), None) -> tw (ld d RDX off :: code) Q (m', None).
Proof.
  intros U Eo Hj Hi HS H. pose proof U as (A & _). destruct Px as (P1 & P2 & P3). apply t_ld with (src j); [|apply src_al|].
  - rewrite A, Ex, Zplus_mod_idemp_l by discriminate. rewrite Eo. replace (px - 8 * Z.of_nat w + 8 * Z.of_nat (j + w)) with (src j) by lia. apply Z.mod_small. lia.
  - rewrite (src_same ms S m' g); [exact H|exact Kp|exact U|exact Hj|]. intros k Hk. specialize (HS k Hk). lia.
Qed.
Lemma t_mst m' S g i v code Q : Upto ms pd g S m' -> (forall k, In k S -> (k < n)%nat) -> (i < n)%nat -> regs m' RAX = v -> mk i v = g i -> (forall m2, agree2 ms m2 -> mem m2 = mupd (mem m') (dst i) (g i) -> tw code Q (m2, None)) -> tw (maskLast n i ++ X86T.st RDI (o8 i) RAX :: code) Q (m', None).
Proof.
  intros U HS Hi Ev Eg H. pose proof U as (A & U2 & _). unfold maskLast. unfold mk in Eg. destruct (Nat.eqb i (n - 1)); cbn [app lboMask].
  - assert (DA : rd lay m' (OMem (BSym SlboMask) 0) = Some lbo).
    { destruct PL as (L1 & L2 & L3). rewrite (rd_loc lay m' _ (lay SlboMask)); [f_equal; rewrite U2, (proj1 (proj2 Kp)); [exact ML|intros j Hj; apply DL, HS, Hj]|]. split; [unfold addr; rewrite Z.add_0_r; apply Z.mod_small; lia|exact L2]. }
    eapply tw_cons; [unfold tstep; cbn [texec]; rewrite DA; reflexivity|]. eapply (t_stl ms _ g); [apply agree2_f, agree2_set; [exact A|auto]|exact Kp|exact Hi|reflexivity| |].
    + cbn [setf setr regs bit_op]. rewrite rupd_eq, Ev. exact Eg.
    + intros m2 A2 M2. apply H; [exact A2|exact M2].
  - eapply (t_stl ms _ g); [exact A|exact Kp|exact Hi|exact Ev|exact Eg|]. intros m2 A2 M2. apply H; [exact A2|exact M2].
Qed.
Definition gl (c : Z) (i : nat) : Z := upw xl (S w) i / 2 ^ (64 - c) + 2 ^ c * (upw xl w i mod 2 ^ (64 - c)).
Lemma upw_rng v i : 0 <= upw xl v i < B. Proof. unfold upw. pose proof B_pos. destruct (i <? v)%nat; [lia|apply xl_rng]. Qed.
Lemma mk0 i : mk i 0 = 0. Proof. unfold mk. destruct (Nat.eqb _ _); [apply Z.land_0_l|reflexivity]. Qed.
Lemma gl_lo c i : (i < w)%nat -> gl c i = 0.
Proof. intros H. unfold gl, upw. destruct (Nat.ltb_spec i (S w)), (Nat.ltb_spec i w); try lia. rewrite Zdiv_0_l, Zmod_0_l. lia. Qed.
Definition tail_if2 (i : nat) : list tinstr := jnz l_else :: ld RAX RDX (o8 i) :: Sh (ShlCl RAX) :: And64 RAX R9 :: maskLast n i ++ [X86T.st RDI (o8 i) RAX; jmp l_end; lab l_else; zero RAX; X86T.st RDI (o8 i) RAX; lab l_end].
Ltac aft c := apply t_after with c; [unfold tail_if2, maskLast, lboMask; destruct (Nat.eqb _ _); reflexivity|].
Lemma shl_store c i : 0 < c < 64 -> regs ms RCX = c + 256 * (64 - c) -> regs ms R10 = 2 ^ c - 1 -> regs ms R9 = B - 1 - (2 ^ c - 1) -> (i < n)%nat ->
  forall S m', Upto ms pd (fun i => mk i (gl c i)) S m' -> (forall j, In j S -> (j < n)%nat /\ (j > i)%nat) -> tw (shlLimb n i) (stored1 ms pd (fun i => mk i (gl c i)) m' i) (m', None).
Proof.
  intros Hc E1 E10 E9 Hi S m' U HS. pose proof U as (A & _). assert (HB : Z.of_nat n < B) by (destruct Pd as (Q1 & Q2 & Q3); lia). set (g := fun i => mk i (gl c i)) in *. unfold shlLimb. cbn [app].
  assert (R8' : regs m' R8 = Z.of_nat w) by (rewrite A by discriminate; exact E8).
  apply t_cmpi; [lia|lia|]. intros f1 C1 Z1. rewrite R8' in C1, Z1. apply t_jnc; cbn [setf fl]; rewrite C1; intros C.
  - assert (G : (i <= w)%nat) by (destruct (Z.ltb_spec (Z.of_nat w) (Z.of_nat i)); [discriminate|lia]).
    aft (tail_if2 i). unfold tail_if2. apply t_jnz; cbn [setf fl]; rewrite Z1; intros Z.
    + assert (i < w)%nat by (destruct (Z.eqb_spec (Z.of_nat w) (Z.of_nat i)); [discriminate|lia]). aft ([zero RAX; X86T.st RDI (o8 i) RAX; lab l_end]). apply t_zero. intros f2.
      eapply (t_stl ms _ g); [apply agree2_f, agree2_set; [exact A|auto]|exact Kp|exact Hi|reflexivity|cbn [setf setr regs]; rewrite rupd_eq; unfold g; rewrite gl_lo, mk0 by lia; reflexivity|]. intros m2 A2 M2. apply t_lab, tw_nil, stored_done; [exact A2|exact M2].
    + assert (Ew : i = w) by (apply Z.eqb_eq in Z; lia). eapply (t_ldy _ S g i _ 0); [exact U|unfold o8; lia|lia|lia|exact HS|].
      apply t_shlCl with c; [cbn [setr setf regs]; rewrite rupd_neq, A, E1 by discriminate; apply mod_ce; lia|exact Hc|]. intros f2. apply t_and. intros f3. cbn [setf setr regs]. rewrite !rupd_eq, !(rupd_neq _ _ R9) by discriminate. rewrite A, E9 by discriminate.
      eapply (t_mst _ S g); [|intros j Hj; apply HS, Hj|exact Hi|reflexivity| |].
      * destruct U as (_ & U2). split; [apply agree2_f, agree2_set; [apply agree2_f, agree2_set; [apply agree2_set; [exact A|auto]|auto]|auto]|exact U2].
      * cbn [setf setr regs]. rewrite rupd_eq. unfold g. f_equal. rewrite high_part by lia. rewrite mask_high; [|lia|apply Z.mod_pos_bound, Z.pow_pos_nonneg; lia]. unfold gl, upw. destruct (Nat.ltb_spec i (Datatypes.S w)), (Nat.ltb_spec i w); try lia. replace (i - w)%nat with 0%nat by lia. rewrite Zdiv_0_l. lia.
      * intros m2 A2 M2. apply t_jmp. apply t_after with []; [reflexivity|]. apply tw_nil, stored_done; [exact A2|exact M2].
  - assert (G : (w < i)%nat) by (destruct (Z.ltb_spec (Z.of_nat w) (Z.of_nat i)); [lia|discriminate]).
    eapply (t_ldy _ S g i _ (i - w)); [exact U|unfold o8; lia|lia|lia|exact HS|].
    apply t_shlCl with c; [cbn [setr setf regs]; rewrite rupd_neq, A, E1 by discriminate; apply mod_ce; lia|exact Hc|]. intros f2. apply t_and. intros f3. cbn [setf setr regs]. rewrite !rupd_eq, !(rupd_neq _ _ R9) by discriminate. rewrite A, E9 by discriminate.
    set (m1 := setf _ f3). assert (A1 : agree2 ms m1) by (apply agree2_f, agree2_set; [apply agree2_f, agree2_set; [apply agree2_set; [exact A|auto]|auto]|auto]). assert (V1 : regs m1 RAX = Z.land (xl (i - w) * 2 ^ c mod B) (B - 1 - (2 ^ c - 1))) by (unfold m1; cbn [setf setr regs]; apply rupd_eq).
    assert (U1 : Upto ms pd g S m1) by (destruct U as (_ & U2); split; [exact A1|exact U2]).
    eapply (t_ldy _ S g i _ (i - w - 1)); [exact U1|unfold o8; lia|lia|lia|exact HS|]. change (Sh (ShrCl R11)) with (Sh (if false then ShlCl R11 else ShrCl R11)).
    apply t_ch with c (64 - c); [discriminate|cbn [setr regs]; rewrite rupd_neq, A1 by discriminate; exact E1|lia|lia|]. intros m2 M2 R2 V2. cbn [setr regs mem] in R2, M2, V2. rewrite rupd_eq in V2.
    assert (A2 : agree2 ms m2) by (intros r H1 H2; rewrite R2, rupd_neq by exact H2; apply A1; assumption).
    apply t_and. intros f4. apply t_or. intros f5. cbn [setf setr regs]. rewrite rupd_eq, (rupd_neq _ _ RAX) by discriminate. assert (V3 : regs m2 RAX = Z.land (xl (i - w) * 2 ^ c mod B) (B - 1 - (2 ^ c - 1))) by (rewrite R2, rupd_neq by discriminate; exact V1).
    rewrite V2, V3, (A2 R10), E10 by discriminate. cbn [sval]. rewrite shl_limb by (try apply xl_rng; exact Hc).
    eapply (t_mst _ S g); [|intros j Hj; apply HS, Hj|exact Hi|reflexivity| |].
    + destruct U as (_ & U2 & U3). split; [apply agree2_f, agree2_set; [apply agree2_f, agree2_set; [exact A2|auto]|auto]|]. cbn [setf setr mem]. rewrite M2. split; [exact U2|exact U3].
    + cbn [setf setr regs]. rewrite rupd_eq. unfold g. f_equal. unfold gl, upw. destruct (Nat.ltb_spec i (Datatypes.S w)), (Nat.ltb_spec i w); try lia. replace (i - Datatypes.S w)%nat with (i - w - 1)%nat by lia. lia.
    + intros m3 A3 M3. apply t_jmp. aft (@nil tinstr). apply tw_nil, stored_done; [exact A3|]. rewrite M3. cbn [setf setr mem]. rewrite M2. reflexivity.
Qed.
Lemma gl0 i : gl 0 i = upw xl w i.
Proof. unfold gl. change (64 - 0) with 64. change (2 ^ 64) with B. rewrite Z.div_small, Z.mod_small by apply upw_rng. lia. Qed.
Lemma shl_store0 i : (i < n)%nat ->
  forall S m', Upto ms pd (fun i => mk i (gl 0 i)) S m' -> (forall j, In j S -> (j < n)%nat /\ (j > i)%nat) -> tw (shlWord n i) (stored1 ms pd (fun i => mk i (gl 0 i)) m' i) (m', None).
Proof.
  intros Hi S m' U HS. pose proof U as (A & _). assert (HB : Z.of_nat n < B) by (destruct Pd as (Q1 & Q2 & Q3); lia). set (g := fun i => mk i (gl 0 i)) in *. unfold shlWord. cbn [app].
  assert (R8' : regs m' R8 = Z.of_nat w) by (rewrite A by discriminate; exact E8).
  eapply t_cmpj; [reflexivity|reflexivity| |]; intros f1; cbn [scond_holds]; rewrite R8'; intros C.
  - apply Z.ltb_lt in C. aft ([zero RAX; X86T.st RDI (o8 i) RAX; lab l_end]). apply t_zero. intros f2.
    eapply (t_stl ms _ g); [apply agree2_f, agree2_set; [exact A|auto]|exact Kp|exact Hi|reflexivity|cbn [setf setr regs]; rewrite rupd_eq; unfold g; rewrite gl_lo, mk0 by lia; reflexivity|]. intros m2 A2 M2. apply t_lab, tw_nil, stored_done; [exact A2|exact M2].
  - apply Z.ltb_ge in C. eapply (t_ldy _ S g i _ (i - w)); [exact U|unfold o8; lia|lia|lia|exact HS|].
    eapply (t_mst _ S g); [|intros j Hj; apply HS, Hj|exact Hi|reflexivity| |].
    + destruct U as (_ & U2). split; [apply agree2_set; [exact A|auto]|exact U2].
    + cbn [setf setr regs]. rewrite rupd_eq. unfold g. f_equal. rewrite gl0. unfold upw. destruct (Nat.ltb_spec i w); [lia|reflexivity].
    + intros m3 A3 M3. apply t_jmp. apply t_after with []; [reflexivity|]. apply tw_nil, stored_done; [exact A3|exact M3].
Qed.
Lemma es_gl c : 0 <= c < 64 -> es (fun i => mk i (gl c i)) n = vals m px n * 2 ^ (64 * Z.of_nat w + c) mod 2 ^ bl.
Proof.
  intros Hc. assert (GR : forall i, 0 <= gl c i < B).
  { intros i. unfold gl. assert (EB : B = 2 ^ c * 2 ^ (64 - c)) by (rewrite <- Z.pow_add_r, B_eq by lia; f_equal; lia). assert (P1 : 0 < 2 ^ c) by (apply Z.pow_pos_nonneg; lia). assert (P2 : 0 < 2 ^ (64 - c)) by (apply Z.pow_pos_nonneg; lia).
    pose proof (Z.mod_pos_bound (upw xl w i) _ P2). pose proof (upw_rng (S w) i). assert (0 <= upw xl (S w) i / 2 ^ (64 - c) < 2 ^ c) by (split; [apply Z.div_pos; lia|apply Z.div_lt_upper_bound; lia]). rewrite EB. nia. }
  unfold mk, lbo. rewrite (es_mask (gl c) n bl Hn ltac:(lia) ltac:(intros; apply GR)). rewrite (es_shl xl n w c (gl c) xl_rng xl_hi Hc ltac:(reflexivity)). rewrite xl_val. symmetry. apply Znumtheory.Zmod_div_mod; [apply Z.pow_pos_nonneg; lia|apply Bpow_pos|].
  exists (2 ^ (64 * Z.of_nat n - bl)). rewrite <- Z.pow_add_r, B_eq, <- Z.pow_mul_r by lia. f_equal. lia.
Qed.
End Shl.

(** *** the routines *)
Notation k := (regs m RDX).
Notation c := (k mod 64).
Notation w := (Z.to_nat (k / 64)).
Definition Qret (V : Z) (s : X86RawFacts.st) : Prop := snd s = Some l_ret /\ FinalC n m pd clobS V (fst s, None).
Definition Fin (V : Z) (s : X86RawFacts.st) : Prop := FinalC n m pd clobS V s.
Lemma fin_kept ms V s : kept ms -> Final n ms pd V s -> Fin V s.
Proof.
  intros (K1 & K2 & K3) [F1 F2 F3 F4 F5]. constructor; [exact F1| | |exact F4|exact F5].
  - intros r Hr. rewrite F2 by (intros ->; apply Hr; left; reflexivity). apply K3, Hr.
  - intros x Hx. rewrite F3, K2 by exact Hx. reflexivity.
Qed.
Lemma fin_ret V code s : tnolab l_ret code = true -> Fin V s -> tw (TRet :: code) (Qret V) s.
Proof. intros H F. destruct s as [m' sk]. pose proof F as [F1 _ _ _ _]. cbn [snd] in F1. subst sk. apply t_ret; [exact H|]. split; [reflexivity|]. exact F. Qed.
Lemma cw_ok : 0 <= k < bl -> 0 <= c < 64 /\ (w < n)%nat /\ Z.of_nat w = k / 64 /\ k = 64 * Z.of_nat w + c.
Proof.
  intros H. pose proof (Z.mod_pos_bound k 64 ltac:(lia)). pose proof (Z.div_mod k 64 ltac:(lia)). assert (0 <= k / 64) by (apply Z.div_pos; lia). rewrite Z2Nat.id by lia. split; [lia|]. split; [|lia]. lia.
Qed.
Definition midr : list tinstr := [mov R8 RDX; Sh (ShrI R8 6); mov RCX RDX; Bit Band RCX (OImm 63); jz 75; Sh (MovCh 64); Sh SubChCl].
Lemma zero_nolab l : nolab l (asm_rawZero n) = true.
Proof. unfold asm_rawZero. cbn [nolab]. induction (seq 0 n) as [|i L IH]; [reflexivity|exact IH]. Qed.
Lemma tails_ret : tnolab l_ret (rawTails n) = true.
Proof.
  unfold rawTails. rewrite !tnolab_app, !tnolab_X, zero_nolab. unfold asm_rawCopy. rewrite nolab_flat by reflexivity. reflexivity.
Qed.
Lemma head_ok V mid mid2 : (forall l, In l [70%nat; 71%nat; 75%nat; l_ret] -> tnolab l mid = true /\ tnolab l mid2 = true) ->
  (k = 0 -> V = vals m px n) -> (bl <= k -> V = 0) ->
  (0 < k < bl -> 0 < c -> forall ms, kept ms -> regs ms R8 = Z.of_nat w -> regs ms RCX = c + 256 * (64 - c) -> tw mid (Fin V) (ms, None)) ->
  (0 < k < bl -> c = 0 -> forall ms, kept ms -> regs ms R8 = Z.of_nat w -> tw mid2 (Fin V) (ms, None)) ->
  tw (rawHead bl ++ midr ++ mid ++ [TRet; lab 75] ++ mid2 ++ [TRet] ++ rawTails n) (Qret V) (m, None).
Proof.
  intros NL V0 V1 HU HA. assert (Rk : 0 <= k < B) by apply Hm. assert (Kp0 : kept m) by (split; [exact Hm|]; split; [reflexivity|intros r _; reflexivity]). assert (HB : 2 ^ 32 < B) by reflexivity.
  assert (TN : forall l, In l [70%nat; 71%nat; 75%nat; l_ret] -> forall r, tnolab l r = true -> tnolab l (mid2 ++ [TRet] ++ r) = true) by (intros l Hl r Hr; rewrite !tnolab_app, (proj2 (NL l Hl)); exact Hr).
  unfold rawHead. cbn [app]. apply t_cmpi; [exact Rk|lia|]. intros f1 C1 Z1. apply t_jz; cbn [setf fl]; rewrite Z1; intros Z.
  { apply Z.eqb_eq in Z. rewrite (V0 Z). apply t_after with (map X (asm_rawCopy n) ++ [TRet; lab 71] ++ map X (asm_rawZero n) ++ [TRet]).
    { apply (after_app 70%nat (cmpi RDX bl :: jnc 71 :: midr)); [reflexivity|]. apply after_app; [apply NL; cbn; auto|]. apply (after_app _ [TRet; lab 75]); [reflexivity|]. apply after_app; [apply NL; cbn; auto|]. apply (after_app _ [TRet]); [reflexivity|]. reflexivity. }
    apply t_X. eapply ww_mono; [|apply (rawCopy_ww lay n (setf m f1) pd Hm Ed Pd Hn px Es Px SA)]. intros s F. apply fin_ret; [|apply (fin_kept (setf m f1)); [exact Kp0|exact F]].
    cbn [app tnolab lab]. rewrite tnolab_app, tnolab_X, zero_nolab. reflexivity. }
  apply Z.eqb_neq in Z. apply t_cmpi; [exact Rk|lia|]. intros f2 C2 Z2. apply t_jnc; cbn [setf fl]; rewrite C2; intros C; cbn [setf regs] in C.
  { apply Z.ltb_ge in C. rewrite (V1 C). apply t_after with (map X (asm_rawZero n) ++ [TRet]).
    { apply (after_app 71%nat midr); [reflexivity|]. apply after_app; [apply NL; cbn; auto|]. apply (after_app _ [TRet; lab 75]); [reflexivity|]. apply after_app; [apply NL; cbn; auto|]. apply (after_app _ [TRet]); [reflexivity|]. unfold rawTails. apply after_app; [reflexivity|]. apply after_app; [rewrite tnolab_X; apply nolab_flat; reflexivity|]. reflexivity. }
    apply t_X. eapply ww_mono; [|apply (rawZero_ww lay n (setf (setf m f1) f2) pd Ed Pd)]. intros s F. apply fin_ret; [reflexivity|]. apply (fin_kept (setf (setf m f1) f2)); [exact Kp0|exact F]. }
  apply Z.ltb_lt in C. destruct (cw_ok ltac:(lia)) as (Hc & Hw & Ew & Ek). unfold midr. cbn [app]. apply t_mov. apply t_shrI. intros f3 _. cbn [setr regs setf]. rewrite rupd_eq. change (2 ^ 6) with 64. rewrite <- Ew. apply t_mov. cbn [setr regs setf]. rewrite !rupd_neq by discriminate.
  set (m1 := setr (setf _ f3) RCX k). assert (K1 : kept m1). { apply kept_set; [apply kept_f, kept_set; [apply kept_set; [exact Kp0|cbn; auto|exact Rk]|cbn; auto|lia]|cbn; auto|exact Rk]. }
  assert (L63 : Z.land k 63 = c) by (change 63 with (Z.ones 6); rewrite Z.land_ones by lia; reflexivity).
  eapply tw_cons; [unfold tstep; cbn [texec rd]; reflexivity|]. cbn [bit_op]. replace (regs m1 RCX) with k by (unfold m1; cbn [setr regs]; symmetry; apply rupd_eq). rewrite L63.
  set (m2 := setf (setr m1 RCX c) _). assert (K2 : kept m2) by (apply kept_f, kept_set; [exact K1|cbn; auto|lia]).
  assert (R8' : regs m2 R8 = Z.of_nat w) by (unfold m2, m1; cbn [setf setr regs]; rewrite !(rupd_neq _ _ R8) by discriminate; apply rupd_eq). assert (RC : regs m2 RCX = c) by (unfold m2; cbn [setf setr regs]; apply rupd_eq).
  apply t_jz; unfold m2 at 1; cbn [setf fl fl3 zf]; intros Zc.
  - apply Z.eqb_eq in Zc. apply t_after with (mid2 ++ [TRet] ++ rawTails n). { apply (after_app 75%nat [Sh (MovCh 64); Sh SubChCl]); [reflexivity|]. apply after_app; [apply NL; cbn; auto|]. reflexivity. }
    apply tw_app. eapply tw_mono; [|apply (HA ltac:(lia) Zc m2 K2 R8')]. intros s F. apply fin_ret; [apply tails_ret|exact F].
  - apply Z.eqb_neq in Zc. eapply tw_cons; [reflexivity|]. unfold setb1. rewrite RC. rewrite (Z.div_small c 256), (Z.mod_small 0) by lia. replace (c - 0 * 256 + 64 * 256) with (c + 256 * 64) by lia. set (m3 := setr m2 RCX _).
    assert (K3 : kept m3) by (apply kept_set; [exact K2|cbn; auto|lia]). assert (RC3 : regs m3 RCX = c + 256 * 64) by (unfold m3; cbn [setr regs]; apply rupd_eq).
    eapply tw_cons; [reflexivity|]. unfold setb1. rewrite RC3. assert (E1 : (c + 256 * 64) mod 256 = c) by (apply mod_ce; lia). assert (E2 : (c + 256 * 64) / 256 = 64) by (rewrite Z.mul_comm, Z.div_add, Z.div_small by lia; lia). rewrite E1, E2. change (64 mod 256) with 64. rewrite (Z.mod_small (64 - c) 256) by lia.
    replace (c + 256 * 64 - 64 * 256 + (64 - c) * 256) with (c + 256 * (64 - c)) by lia. set (m4 := setf _ _). assert (K4 : kept m4) by (apply kept_f, kept_set; [exact K3|cbn; auto|lia]).
    apply tw_app. eapply tw_mono; [|apply (HU ltac:(lia) ltac:(lia) m4 K4)].
    + intros s F. apply fin_ret; [|exact F]. cbn [tnolab lab]. apply TN; [cbn; auto|apply tails_ret].
    + unfold m4, m3. cbn [setf setr regs]. rewrite !(rupd_neq _ _ R8) by discriminate. exact R8'.
    + unfold m4. cbn [setf setr regs]. apply rupd_eq.
Qed.

(** all limbs stored *)
Lemma fin_upto ms g S m' V : kept ms -> (forall j, (j < n)%nat -> In j S) -> (forall j, In j S -> (j < n)%nat) -> Upto ms pd g S m' -> words m' -> es g n = V -> Fin V (m', None).
Proof.
  intros (K1 & K2 & K3) S1 S2 (U1 & U2 & U3) W E. constructor; cbn [fst snd]; [reflexivity| | |intros; apply W|].
  - intros r Hr. rewrite U1 by (intros ->; apply Hr; cbn; auto 10). apply K3, Hr.
  - intros x Hx. rewrite U2, K2 by (intros j Hj; apply Hx, S2, Hj). reflexivity.
  - rewrite <- E. apply es_ext. intros j Hj. apply U3, S1, Hj.
Qed.
Lemma in_seq0 j : In j (seq 0 n) <-> (j < n)%nat. Proof. rewrite in_seq. lia. Qed.
Lemma in_rev0 j : In j (rev (seq 0 n)) <-> (j < n)%nat. Proof. rewrite <- in_rev. apply in_seq0. Qed.
Lemma upto_nil ms g : Upto ms pd g [] ms. Proof. split; [intros r _ _; reflexivity|]. split; [reflexivity|intros j []]. Qed.
Definition Vr : Z := vals m px n / 2 ^ k.
Definition premR : list tinstr := [movi R9 1; Sh RolCx8; Sh (ShlCl R9); Sh RolCx8; subi R9 1; mov R10 R9; Not64 R10].
Lemma shr_split : asm_rawShr n bl = rawHead bl ++ midr ++ (premR ++ flat_map (shrLimb n) (seq 0 n)) ++ [TRet; lab 75] ++ flat_map (shrWord n) (seq 0 n) ++ [TRet] ++ rawTails n.
Proof. unfold asm_rawShr. fold midr premR. rewrite <- !app_assoc. reflexivity. Qed.
Lemma limbR_tok i : Forall tok (shrLimb n i).
Proof. assert (HB : Z.of_nat n < B) by (destruct Pd as (Q1 & Q2 & Q3); lia). unfold shrLimb. toks. Qed.
Lemma wordR_tok i : Forall tok (shrWord n i).
Proof. unfold shrWord. toks. Qed.
Lemma pow64 e : 0 <= e < 64 -> 1 <= 2 ^ e < B.
Proof. intros H. rewrite B_eq. split; [|apply Z.pow_lt_mono_r; lia]. pose proof (Z.pow_pos_nonneg 2 e ltac:(lia) ltac:(lia)). lia. Qed.
Lemma rawShr_tw : tw (asm_rawShr n bl) (Qret (if k <? bl then Vr else 0)) (m, None).
Proof.
  rewrite shr_split. apply head_ok.
  - intros l Hl. assert (D : l <> l_if2 /\ l <> l_else /\ l <> l_end) by (cbn in Hl; unfold l_ret, l_if2, l_else, l_end in *; lia). destruct D as (D1 & D2 & D3). apply Nat.eqb_neq in D1, D2, D3.
    rewrite tnolab_app, !tnolab_flat; [split; reflexivity| |]; intros i; cbn [shrWord shrLimb tnolab lab cmpi jnc jnz idx jmp X86T.st zero]; rewrite ?D1, ?D2, ?D3; reflexivity.
  - intros E. rewrite E. destruct (Z.ltb_spec 0 bl); [|lia]. unfold Vr. rewrite E, Z.div_1_r. reflexivity.
  - intros E. destruct (Z.ltb_spec k bl); [lia|reflexivity].
  - intros Hk Hc ms Kp R8' RC. destruct (Z.ltb_spec k bl); [|lia]. destruct (cw_ok ltac:(lia)) as (Hc' & Hw & Ew & Ek). pose proof (pow64 (64 - c) ltac:(lia)) as P64.
    unfold premR. cbn [app]. apply t_movi. change (Sh (ShlCl R9)) with (Sh (if true then ShlCl R9 else ShrCl R9)).
    apply t_ch with c (64 - c); [discriminate|cbn [setr regs]; rewrite rupd_neq by discriminate; exact RC|lia|lia|]. intros m2 M2 R2 V2. cbn [setr regs mem sval] in R2, M2, V2. rewrite rupd_eq, Z.mul_1_l, Z.mod_small in V2 by lia.
    assert (K2 : kept m2). { destruct Kp as (K1 & K2 & K3). split; [|split; [rewrite M2; exact K2|]].
      - split; [|rewrite M2; apply K1]. intros r. destruct (reg_dec r R9) as [->|N]; [rewrite V2; lia|]. rewrite R2, rupd_neq by exact N. apply K1.
      - intros r Hr. rewrite R2, rupd_neq by (intros ->; apply Hr; cbn; auto 10). apply K3, Hr. }
    apply t_subi; [rewrite V2; lia|]. intros f1. apply t_mov. apply t_not. cbn [setf setr regs]. rewrite !rupd_eq. rewrite V2. set (m3 := setr (setr _ _ _) _ _).
    assert (K3 : kept m3) by (apply kept_set; [apply kept_set; [apply kept_f, kept_set; [exact K2|cbn; auto 10|lia]|cbn; auto 10|lia]|cbn; auto 10|lia]).
    assert (G9 : regs m3 R9 = 2 ^ (64 - c) - 1) by (unfold m3; rg; reflexivity). assert (G10 : regs m3 R10 = B - 1 - (2 ^ (64 - c) - 1)) by (unfold m3; rg; reflexivity).
    assert (G8 : regs m3 R8 = Z.of_nat w) by (unfold m3; rg; rewrite R2 by discriminate; rg; exact R8'). assert (GC : regs m3 RCX = c + 256 * (64 - c)) by (unfold m3; rg; rewrite R2 by discriminate; rg; exact RC).
    eapply tw_mono; [|apply tw_words; [apply K3|apply Forall_flat; apply limbR_tok|apply (any_loop lay ra m3 pd (shrLimb n) (gr w c) lt (seq 0 n) [] m3)]].
    + intros [m4 sk] [[F1 F2] F3]. cbn [fst snd] in *. subst sk. apply (fin_upto m3 (gr w c) (seq 0 n)); [exact K3|apply in_seq0|apply in_seq0|exact F2|exact F3|].
      unfold Vr. rewrite (es_shr xl n w c (gr w c) xl_rng xl_hi ltac:(lia) ltac:(reflexivity)), xl_val, <- Ek. reflexivity.
    + intros i Hi. apply in_seq0 in Hi. apply shr_store; try assumption. lia.
    + apply fop_seq.
    + intros j i [].
    + apply upto_nil.
  - intros Hk Hc ms Kp R8'. destruct (Z.ltb_spec k bl); [|lia]. destruct (cw_ok ltac:(lia)) as (Hc' & Hw & Ew & Ek).
    eapply tw_mono; [|apply tw_words; [apply Kp|apply Forall_flat; apply wordR_tok|apply (any_loop lay ra ms pd (shrWord n) (gr w 0) lt (seq 0 n) [] ms)]].
    + intros [m4 sk] [[F1 F2] F3]. cbn [fst snd] in *. subst sk. apply (fin_upto ms (gr w 0) (seq 0 n)); [exact Kp|apply in_seq0|apply in_seq0|exact F2|exact F3|].
      unfold Vr. rewrite (es_shr xl n w 0 (gr w 0) xl_rng xl_hi ltac:(lia) ltac:(reflexivity)), xl_val. rewrite Ek at 2. rewrite Hc. reflexivity.
    + intros i Hi. apply in_seq0 in Hi. apply shr_store0; assumption.
    + apply fop_seq.
    + intros j i [].
    + apply upto_nil.
Qed.
(** calling a shift *)
Lemma ret_call code V : tw code (Qret V) (m, None) -> exists m' l, tcall lay ra code m = Some m' /\ limbs_ok n l /\ eval l = V /\ stored clobS pd l m m'.
Proof.
  intros H. destruct (tcall_of lay ra code m (fun m' => exists l, limbs_ok n l /\ eval l = V /\ stored clobS pd l m m')) as (m' & E & l & K); [|exists m', l; split; [exact E|exact K]].
  eapply tw_mono; [|exact H]. intros [m' sk] [-> [_ K2 K3 K4 K5]]. cbn [fst snd] in *. split; [reflexivity|]. split; [apply K2; cbn; intuition discriminate|]. split; [apply K3, Hret|].
  destruct (limbs_of n pd Hn m' _ K4 K5) as (l & L1 & L2 & L3). exists l. split; [exact L1|]. split; [exact L2|]. unfold stored. cbn [setr regs mem]. rewrite (proj1 L1). split; [exact L3|]. split; [exact K3|]. split; [|apply rupd_eq].
  intros r Hr Hs. rewrite rupd_neq by exact Hs. apply K2, Hr.
Qed.
(** *** shl *)
Section ShlCall.
Hypothesis Hbn0 : 64 * (Z.of_nat n - 1) < bl.
Hypothesis ML : mem m (lay SlboMask) = lbo.
Hypothesis PL : X86RawFacts.ptr (lay SlboMask) 1.
Hypothesis DL : forall j, (j < n)%nat -> lay SlboMask <> dst j.
Hypothesis Hq : X86RawFacts.ptr (lay Sq) n.
Hypothesis Dq : apart n (lay Sq) pd.
Notation q := (vals m (lay Sq) n).
Hypothesis Tq : 2 ^ bl <= 2 * q.
Definition Vl : Z := (vals m px n * 2 ^ k mod 2 ^ bl) mod q.
Definition premL : list tinstr := [movi R10 1; Sh (ShlCl R10); subi R10 1; mov R9 R10; Not64 R9].
Lemma shl_split : asm_rawShl n bl = rawHead bl ++ midr ++ (premL ++ shlBase ++ flat_map (shlLimb n) (rev (seq 0 n)) ++ map X (binSubQ n 0)) ++ [TRet; lab 75] ++ (shlBase ++ flat_map (shlWord n) (rev (seq 0 n)) ++ map X (binSubQ n 0)) ++ [TRet] ++ rawTails n.
Proof. unfold asm_rawShl. fold midr premL. rewrite <- !app_assoc. reflexivity. Qed.
Lemma limbL_tok i : (i < n)%nat -> Forall tok (shlLimb n i).
Proof. intros Hi. assert (HB : Z.of_nat n < B) by (destruct Pd as (Q1 & Q2 & Q3); lia). unfold shlLimb, maskLast, lboMask. destruct (Nat.eqb _ _); cbn [app]; toks. Qed.
Lemma wordL_tok i : (i < n)%nat -> Forall tok (shlWord n i).
Proof. intros Hi. unfold shlWord, maskLast, lboMask. destruct (Nat.eqb _ _); cbn [app]; toks. Qed.
Lemma limbL_nolab l i : Nat.eqb l l_if2 = false -> Nat.eqb l l_else = false -> Nat.eqb l l_end = false -> tnolab l (shlLimb n i) = true.
Proof. intros H1 H2 H3. unfold shlLimb, maskLast, lboMask. destruct (Nat.eqb i _); cbn [app tnolab lab cmpi jnc jnz ld jmp X86T.st zero]; rewrite ?H1, ?H2, ?H3; reflexivity. Qed.
Lemma wordL_nolab l i : Nat.eqb l l_if2 = false -> Nat.eqb l l_else = false -> Nat.eqb l l_end = false -> tnolab l (shlWord n i) = true.
Proof. intros H1 H2 H3. unfold shlWord, maskLast, lboMask. destruct (Nat.eqb i _); cbn [app tnolab lab cmpi jnc jnz ld jmp X86T.st zero]; rewrite ?H1, ?H2, ?H3; reflexivity. Qed.
(** the final subtraction of q *)
Lemma tail_fin m' V : words m' -> Fin V (m', None) -> 0 <= V < 2 ^ bl -> tw (map X (binSubQ n 0)) (Fin (V mod q)) (m', None).
Proof.
  intros W [_ F2 F3 F4 F5] HV. cbn [fst] in *. assert (EQ : vals m' (lay Sq) n = q) by (apply es_ext; intros j Hj; apply F3; intros i Hi; unfold apart in Dq; lia).
  rewrite <- (app_nil_r (map X _)). apply t_X. eapply ww_mono; [|apply (tail8 lay n m' 0 pd W ltac:(rewrite F2 by (cbn; intuition discriminate); rewrite Ed; lia) Pd Hn Hq Dq); rewrite F5, EQ; lia].
  intros s [K1 K2 K3 K4 K5]. rewrite F5, EQ in K5. apply tw_nil. constructor; [exact K1| | |exact K4|exact K5].
  - intros r Hr. rewrite K2 by (intros ->; apply Hr; left; reflexivity). apply F2, Hr.
  - intros x Hx. rewrite K3 by exact Hx. apply F3, Hx.
Qed.
Lemma base_ok ms rest Q : kept ms -> regs ms R8 = Z.of_nat w -> (w < n)%nat ->
  (forall m2, kept m2 -> (forall r, r <> RAX -> r <> RDX -> regs m2 r = regs ms r) -> regs m2 RDX = (px - 8 * Z.of_nat w) mod B -> tw rest Q (m2, None)) -> tw (shlBase ++ rest) Q (ms, None).
Proof.
  intros Kp R8' Hw H. destruct Px as (P1 & P2 & P3). destruct Pd as (Q1 & Q2 & Q3). unfold shlBase. cbn [app]. apply t_mov, t_mov. cbn [setr regs]. rewrite (rupd_neq _ _ R8), R8', (kept_r _ _ Kp), Es by (try discriminate; cbn; intuition discriminate).
  apply t_shl64. intros f1. apply t_sub. intros f2. cbn [setf setr regs]. rewrite !rupd_eq, !(rupd_neq _ _ RDX), rupd_eq by discriminate. change (2 ^ 3) with 8. rewrite (Z.mod_small (Z.of_nat w * 8)) by lia. replace (px - Z.of_nat w * 8) with (px - 8 * Z.of_nat w) by lia. apply H.
  - apply kept_f, kept_set; [apply kept_f, kept_set; [apply kept_set; [apply kept_set; [exact Kp|cbn; auto 10|lia]|cbn; auto 10|lia]|cbn; auto 10|lia]|cbn; auto 10|apply Z.mod_pos_bound, B_pos].
  - intros r H1 H2. cbn [setf setr regs]. rewrite !rupd_neq by assumption. reflexivity.
  - cbn [setf setr regs]. apply rupd_eq.
Qed.
Lemma shl_loop_fin ms (f : nat -> list tinstr) c0 : 0 <= c0 < 64 -> c0 = c -> 0 < k < bl -> kept ms -> (forall i, (i < n)%nat -> Forall tok (f i)) ->
  (forall i, (i < n)%nat -> forall S m', Upto ms pd (fun i => mk i (gl w c0 i)) S m' -> (forall j, In j S -> (j < n)%nat /\ (j > i)%nat) -> tw (f i) (stored1 ms pd (fun i => mk i (gl w c0 i)) m' i) (m', None)) ->
  tw (flat_map f (rev (seq 0 n)) ++ map X (binSubQ n 0)) (Fin Vl) (ms, None).
Proof.
  intros Hc E0 Hk Kp TK H. destruct (cw_ok ltac:(lia)) as (Hc' & Hw & Ew & Ek). set (g := fun i => mk i (gl w c0 i)) in *.
  apply tw_app. eapply tw_mono; [|apply tw_words; [apply Kp|apply Forall_flat_in; intros i Hi; apply TK, in_rev0, Hi|apply (any_loop lay ra ms pd f g (fun j i => (j < n)%nat /\ (j > i)%nat) (rev (seq 0 n)) [] ms)]].
  - intros [m4 sk] [[F1 F2] F3]. cbn [fst snd] in *. subst sk. unfold Vl. apply tail_fin; [exact F3| |apply Z.mod_pos_bound, Z.pow_pos_nonneg; lia].
    apply (fin_upto ms g (rev (seq 0 n))); [exact Kp|apply in_rev0|apply in_rev0|exact F2|exact F3|]. unfold g. rewrite es_gl by assumption. rewrite E0, <- Ek. reflexivity.
  - intros i Hi. apply in_rev0 in Hi. intros S m' U HS. apply (H i Hi S); assumption.
  - apply fop_rev. lia.
  - intros j i [].
  - apply upto_nil.
Qed.
Lemma rawShl_tw : tw (asm_rawShl n bl) (Qret (if k =? 0 then vals m px n else if k <? bl then Vl else 0)) (m, None).
Proof.
  rewrite shl_split. apply head_ok.
  - intros l Hl. assert (D : l <> l_if2 /\ l <> l_else /\ l <> l_end /\ l <> l_sq /\ l <> l_done) by (cbn in Hl; unfold l_ret, l_if2, l_else, l_end, l_sq, l_done in *; lia). destruct D as (D1 & D2 & D3 & D4 & D5). apply Nat.eqb_neq in D1, D2, D3.
    rewrite !tnolab_app, !tnolab_X, !binSubQ_nolab by assumption. rewrite !tnolab_flat; [split; reflexivity| |]; intros i; [apply wordL_nolab|apply limbL_nolab]; assumption.
  - intros E. rewrite E. reflexivity.
  - intros E. destruct (Z.eqb_spec k 0); [lia|]. destruct (Z.ltb_spec k bl); [lia|reflexivity].
  - intros Hk Hc ms Kp R8' RC. destruct (Z.eqb_spec k 0); [lia|]. destruct (Z.ltb_spec k bl); [|lia]. destruct (cw_ok ltac:(lia)) as (Hc' & Hw & Ew & Ek). pose proof (pow64 c ltac:(lia)) as P64.
    unfold premL. cbn [app]. apply t_movi. apply t_shlCl with c; [cbn [setr regs]; rewrite rupd_neq, RC by discriminate; apply mod_ce; lia|lia|]. intros f1. cbn [setf setr regs]. rewrite rupd_eq, Z.mul_1_l, Z.mod_small by lia.
    apply t_subi; [cbn [setf setr regs]; rewrite rupd_eq; lia|]. intros f2. cbn [setf setr regs]. rewrite rupd_eq. apply t_mov. apply t_not. cbn [setf setr regs]. rewrite !rupd_eq. set (m3 := setr (setr _ _ _) _ _).
    assert (K3 : kept m3) by (apply kept_set; [apply kept_set; [apply kept_f, kept_set; [apply kept_f, kept_set; [apply kept_set; [exact Kp|cbn; auto 10|lia]|cbn; auto 10|lia]|cbn; auto 10|lia]|cbn; auto 10|lia]|cbn; auto 10|lia]).
    assert (G10 : regs m3 R10 = 2 ^ c - 1) by (unfold m3; rg; reflexivity). assert (G9 : regs m3 R9 = B - 1 - (2 ^ c - 1)) by (unfold m3; rg; reflexivity).
    assert (G8 : regs m3 R8 = Z.of_nat w) by (unfold m3; rg; exact R8'). assert (GC : regs m3 RCX = c + 256 * (64 - c)) by (unfold m3; rg; exact RC).
    apply base_ok; [exact K3|exact G8|exact Hw|]. intros m4 K4 R4 X4. apply (shl_loop_fin m4 _ c); [lia|reflexivity|lia|exact K4|apply limbL_tok|].
    intros i Hi. apply shl_store; try assumption; try lia; rewrite R4 by discriminate; assumption.
  - intros Hk Hc ms Kp R8'. destruct (Z.eqb_spec k 0); [lia|]. destruct (Z.ltb_spec k bl); [|lia]. destruct (cw_ok ltac:(lia)) as (Hc' & Hw & Ew & Ek).
    apply base_ok; [exact Kp|exact R8'|exact Hw|]. intros m4 K4 R4 X4. apply (shl_loop_fin m4 _ 0); [lia|symmetry; exact Hc|lia|exact K4|apply wordL_tok|].
    intros i Hi. apply shl_store0; try assumption; try lia; rewrite R4 by discriminate; assumption.
Qed.
End ShlCall.
End Raw.
