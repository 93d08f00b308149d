(** Running a tagged operation: what stays as it was, and the calls of the raw routines. *)
From Coq Require Import ZArith List Bool Arith Lia.
From Verif Require Import Limbs LimbsFacts Gen GenFacts X86 X86Gen X86Sim X86Mont X86Call X86Routines X86Raw X86RawFacts X86RawFacts2 X86RawFacts3 X86Final X86T X86TWords X86TFacts X86THelp X86THelp2 X86THelp3 X86TSpec.
Import ListNotations.
Open Scope Z_scope.

Definition keptR (r : reg) : Prop := callee_saved r \/ r = RDI \/ r = RSP.
(** a call made at [m] which writes [k] words at [p] and [S] bytes of stack *)
Definition Eff (p : Z) (k : nat) (S : Z) (m m' : mach) : Prop :=
  words m' /\ (forall r, keptR r -> regs m' r = regs m r) /\
  (forall x, ~ (p <= x < p + 8 * Z.of_nat k) -> ~ (regs m RSP - S <= x < regs m RSP) -> mem m' x = mem m x).

Lemma at_ext m m' p l : (forall x, p <= x < p + 8 * Z.of_nat (length l) -> mem m' x = mem m x) -> at_addr m p l -> at_addr m' p l.
Proof. intros H (A1 & A2 & A3 & A4). split; [exact A1|]. split; [exact A2|]. split; [exact A3|]. intros j Hj. rewrite H by lia. apply A4, Hj. Qed.
Lemma al8 x k : x mod 8 = 0 -> (x + 8 * k) mod 8 = 0.
Proof. intros H. replace (x + 8 * k) with (x + k * 8) by lia. rewrite Z.mod_add by lia. exact H. Qed.
Lemma al8m x : x mod 8 = 0 -> (x - 8) mod 8 = 0.
Proof. intros H. apply (al8 x (-1) H). Qed.
Lemma al8p x : x mod 8 = 0 -> (x + 8) mod 8 = 0.
Proof. intros H. apply (al8 x 1 H). Qed.
Lemma at_tail m p x l : at_addr m p (x :: l) -> at_addr m (p + 8) l.
Proof. intros (A1 & A2 & A3 & A4). cbn [length] in *. split; [lia|]. split; [apply al8p, A2|]. split; [lia|]. intros j Hj. change (nth j l 0) with (nth (S j) (x :: l) 0). rewrite <- (A4 (S j)) by lia. f_equal. lia. Qed.
Lemma at_head m p x l : at_addr m p (x :: l) -> mem m p = x.
Proof. intros (_ & _ & _ & A4). change x with (nth 0%nat (x :: l) 0) at 1. rewrite <- (A4 0%nat) by (cbn; lia). f_equal. lia. Qed.
Lemma at_cons m p x l : mem m p = x -> 0 <= p -> p mod 8 = 0 -> at_addr m (p + 8) l -> at_addr m p (x :: l).
Proof. intros E H1 H2 (A1 & A2 & A3 & A4). unfold at_addr. cbn [length]. split; [exact H1|]. split; [exact H2|]. split; [lia|]. intros [|j] Hj; [cbn [nth]; rewrite <- E; f_equal; lia|]. cbn [nth]. rewrite <- A4 by lia. f_equal. lia. Qed.

(** *** words of code without calls *)
Definition sh_ok (s : shi) : Prop := match s with MovCh v => 0 <= v < 256 | ShrI _ k | SarI _ k => 0 <= k | _ => True end.
Definition tok (i : tinstr) : Prop := match i with X i => instr_ok i | Mov8 _ v => 0 <= v < 256 | Bit _ _ s => imm_ok s | Sh s => sh_ok s | Callf _ => False | _ => True end.
Lemma lor_range k x y : 0 <= k -> 0 <= x < 2 ^ k -> 0 <= y < 2 ^ k -> 0 <= Z.lor x y < 2 ^ k.
Proof.
  intros Hk Hx Hy. assert (0 <= Z.lor x y) by (apply Z.lor_nonneg; lia). split; [assumption|]. destruct (Z.eq_dec (Z.lor x y) 0) as [->|N]; [lia|]. destruct (Z.eq_dec k 0) as [->|]; [assert (x = 0) by lia; assert (y = 0) by lia; subst; cbn in N; lia|].
  apply Z.log2_lt_pow2; [lia|]. pose proof (Z.log2_lor x y ltac:(lia) ltac:(lia)) as L.
  assert (Z.log2 x < k) by (destruct (Z.eq_dec x 0) as [->|]; [cbn; lia|apply Z.log2_lt_pow2; lia]). assert (Z.log2 y < k) by (destruct (Z.eq_dec y 0) as [->|]; [cbn; lia|apply Z.log2_lt_pow2; lia]). lia.
Qed.
Lemma land_range x y : 0 <= x < B -> 0 <= y < B -> 0 <= Z.land x y < B.
Proof.
  intros Hx Hy. assert (0 <= Z.land x y) by (apply Z.land_nonneg; lia). split; [assumption|]. change B with (2 ^ 64) in *. destruct (Z.eq_dec (Z.land x y) 0) as [->|N]; [lia|].
  apply Z.log2_lt_pow2; [lia|]. pose proof (Z.log2_land x y ltac:(lia) ltac:(lia)) as L. assert (x <> 0) by (intros ->; cbn in N; lia). assert (Z.log2 x < 64) by (apply Z.log2_lt_pow2; lia). lia.
Qed.
Lemma byte0 d v : 0 <= d < B -> 0 <= v < 256 -> 0 <= d - d mod 256 + v < B.
Proof. intros Hd Hv. assert (E : B = 256 * 2 ^ 56) by reflexivity. pose proof (Z.div_mod d 256 ltac:(lia)). assert (d / 256 < 2 ^ 56) by (apply Z.div_lt_upper_bound; lia). assert (0 <= d / 256) by (apply Z.div_pos; lia). lia. Qed.
Lemma byte1 d v : 0 <= d < B -> 0 <= v < 256 -> 0 <= d - d / 256 mod 256 * 256 + v * 256 < B.
Proof.
  intros Hd Hv. pose proof (Z.div_mod d 256 ltac:(lia)) as E1. pose proof (Z.mod_pos_bound d 256 ltac:(lia)). assert (E : B = 256 * (256 * 2 ^ 48)) by reflexivity.
  set (e := d / 256) in *. assert (e < 256 * 2 ^ 48) by (apply Z.div_lt_upper_bound; lia). assert (0 <= e) by (apply Z.div_pos; lia). pose proof (Z.div_mod e 256 ltac:(lia)). assert (e / 256 < 2 ^ 48) by (apply Z.div_lt_upper_bound; lia). assert (0 <= e / 256) by (apply Z.div_pos; lia). lia.
Qed.
Lemma bit_op_range k o x y : 0 <= k -> 0 <= x < 2 ^ k -> 0 <= y < 2 ^ k -> 0 <= bit_op o x y < 2 ^ k.
Proof.
  intros Hk Hx Hy. assert (S : forall z, 0 <= z -> (forall i, k <= i -> Z.testbit z i = false) -> 0 <= z < 2 ^ k).
  { intros z Hz H. split; [exact Hz|]. replace z with (z mod 2 ^ k); [apply Z.mod_pos_bound; lia|]. apply Z.bits_inj'. intros i Hi. destruct (Z_lt_le_dec i k); [apply Z.mod_pow2_bits_low; lia|]. rewrite Z.mod_pow2_bits_high by lia. symmetry. apply H. lia. }
  assert (T : forall z i, 0 <= z < 2 ^ k -> k <= i -> Z.testbit z i = false). { intros z i Hz Hi. rewrite <- (Z.mod_small z (2 ^ k)) by exact Hz. apply Z.mod_pow2_bits_high. lia. }
  destruct o; cbn [bit_op]; apply S; try (apply Z.land_nonneg; lia); try (apply Z.lor_nonneg; lia); try (apply Z.lxor_nonneg; lia); intros i Hi; rewrite ?Z.land_spec, ?Z.lor_spec, ?Z.lxor_spec, !T by assumption; reflexivity.
Qed.
Lemma some_inj {A} (a b : A) : Some a = Some b -> a = b.
Proof. intros H. injection H as E. exact E. Qed.
Lemma div_range x k : 0 <= x < B -> 0 <= k -> 0 <= x / 2 ^ k < B.
Proof. intros H Hk. assert (0 < 2 ^ k) by (apply Z.pow_pos_nonneg; lia). split; [apply Z.div_pos; lia|]. apply Z.le_lt_trans with x; [|lia]. apply Z.div_le_upper_bound; [assumption|]. nia. Qed.
Lemma exec_sh_words s m m' : words m -> sh_ok s -> exec_sh s m = Some m' -> words m'.
Proof.
  intros W Hs H. pose proof B_pos as HB. assert (MB : forall x, 0 <= x mod B < B) by (intros; apply Z.mod_pos_bound; lia). assert (M8 : forall x, 0 <= x mod 256 < 256) by (intros; apply Z.mod_pos_bound; lia). assert (M6 : forall x, 0 <= x mod 64) by (intros x; apply Z.mod_pos_bound; lia).
  assert (W0 : forall m d v, words m -> 0 <= v < 256 -> words (setb0 m d v)) by (intros m1 d v W1 Hv; apply words_setr; [exact W1|apply byte0; [apply W1|exact Hv]]).
  assert (W1 : forall m d v, words m -> 0 <= v < 256 -> words (setb1 m d v)) by (intros m1 d v W1 Hv; apply words_setr; [exact W1|apply byte1; [apply W1|exact Hv]]).
  destruct s; cbn [exec_sh] in H; try (match type of H with Some ?a = Some _ => apply (some_inj a m') in H; subst m' end).
  - apply words_setf, words_setr; [exact W|apply div_range; [apply W|exact Hs]].
  - apply words_setf, words_setr; [exact W|apply MB].
  - destruct (_ =? 0); [exact W|]. apply words_setf, words_setr; [exact W|apply MB].
  - destruct (_ =? 0); [exact W|]. apply words_setf, words_setr; [exact W|apply div_range; [apply W|apply M6]].
  - apply words_setf, W1, M8. apply W0; [exact W|apply M8].
  - apply W1; [exact W|exact Hs].
  - apply words_setf, W1; [exact W|apply M8].
  - apply W0; [exact W|apply M8].
  - destruct (_ =? 0); [|discriminate]. apply some_inj in H. subst m'. apply words_setr; [exact W|apply W].
Qed.
Lemma texec_words lay i m m' : words m -> tok i -> texec lay i m = Some m' -> words m'.
Proof.
  intros W Hi H. pose proof B_pos as HB. assert (MB : forall x, 0 <= x mod B < B) by (intros; apply Z.mod_pos_bound; lia).
  assert (EW : B = W32 * W32) by reflexivity. assert (0 < W32) by reflexivity. assert (MW : forall x, 0 <= x mod W32 < B) by (intros x; pose proof (Z.mod_pos_bound x W32 ltac:(lia)); nia).
  assert (M8 : forall x, 0 <= x mod 256 < 256) by (intros; apply Z.mod_pos_bound; lia). assert (BB : forall b, 0 <= b2z b < 256) by (intros []; cbn; lia).
  destruct i; cbn [texec] in H; try discriminate; try (match type of H with Some ?a = Some _ => apply (some_inj a m') in H; subst m' end); try exact W; try (apply words_setf); try (apply words_setr; [exact W|]); try (match goal with |- 0 <= _ mod B < B => apply MB | |- 0 <= _ mod W32 < B => apply MW | |- 0 <= addr _ _ _ _ < B => apply MB | |- 0 <= regs _ _ < B => apply W end).
  - apply byte0; [apply W|exact Hi].
  - destruct (_ =? 0); [|discriminate]. injection H as <-. apply words_setm; [exact W|]. pose proof (Z.mod_pos_bound (mem m (regs m b)) W32 ltac:(lia)). pose proof (Z.mod_pos_bound (regs m s) W32 ltac:(lia)). nia.
  - apply words_setr; [apply words_setr; [exact W|apply MW]|apply MW].
  - apply words_setr; [apply words_setr; [exact W|apply MB]|apply MB].
  - apply byte0; [apply W|apply BB].
  - apply byte1; [apply W|apply BB].
  - apply byte0; [apply W|]. apply (lor_range 8); [lia|apply M8|apply M8].
  - apply land_range; apply W.
  - apply (lor_range 64); [lia|apply W|apply W].
  - destruct (rd lay m s) as [v|] eqn:E; [|discriminate]. match type of H with Some ?a = Some _ => apply (some_inj a m') in H; subst m' end. apply words_setf, words_setr; [exact W|]. apply (bit_op_range 64); [lia|apply W|apply (rd_range lay m s v W Hi E)].
  - assert (R32 : 0 <= bit_op o (regs m d mod W32) (regs m s mod W32) < W32) by (apply (bit_op_range 32); [lia|apply Z.mod_pos_bound; reflexivity|apply Z.mod_pos_bound; reflexivity]). assert (WB : W32 < B) by reflexivity. clear - R32 WB. lia.
  - pose proof (proj1 W d). lia.
  - destruct (_ =? 0); [|discriminate]. injection H as <-. apply words_setr; [exact W|apply MW].
  - exact (exec_sh_words _ _ _ W Hi H).
Qed.
Lemma trun_words lay ra code : forall s s', words (fst s) -> Forall tok code -> trun lay ra code s = Some s' -> words (fst s').
Proof.
  induction code as [|i code IH]; intros [m sk] s' W Hi H; cbn [trun] in H; [injection H as <-; exact W|]. inversion Hi; subst. destruct (tstep lay ra i (m, sk)) as [s1|] eqn:E; [|discriminate]. apply (IH s1); [|assumption|exact H]. clear IH H.
  destruct i as [j| | | | | | | | | | | | | | | | | | | | | | | | | | | | |]; [exact (step_words lay j _ _ W ltac:(assumption) E)|..]; cbn [tstep] in E; destruct sk; try (match type of E with Some _ = Some _ => apply some_inj in E; subst s1; exact W end); try (cbn [tok] in *; contradiction);
    try (match type of E with match ?t with _ => _ end = _ => destruct t as [m1|] eqn:E2; [|discriminate] end; apply some_inj in E; subst s1; refine (texec_words lay _ m m1 W _ E2); assumption).
  cbn [cmpval] in E. destruct y; cbn [cmpval] in E; try discriminate; injection E as <-; exact W.
Qed.
Lemma tcall_words lay ra code m m' : words m -> Forall tok code -> tcall lay ra code m = Some m' -> words m'.
Proof.
  intros W Hi H. unfold tcall in H. destruct (trun lay ra code (m, None)) as [[m1 [l|]]|] eqn:E; try discriminate. destruct (_ && _); [|discriminate]. injection H as <-. apply words_setr; [|apply Z.mod_pos_bound; pose proof B_pos; lia].
  apply (trun_words lay ra code (m, None) (m1, Some l)); assumption.
Qed.
Lemma tok_X l : Forall instr_ok l -> Forall tok (map X l).
Proof. induction 1; constructor; assumption. Qed.
Lemma copyS2L_tok n : Forall tok (asm_rawCopyS2L n).
Proof.
  unfold asm_rawCopyS2L. repeat (apply Forall_app; split); try (apply tok_X; raw_ok); repeat (apply Forall_cons || apply Forall_nil); unfold X86T.st, X86T.lab; cbn [tok]; try exact Logic.I; try lia; raw_ok.
  cbn [imm_ok]. pose proof B_pos. lia.
Qed.
Lemma negLS_tok n : Forall tok (asm_rawNegLS n).
Proof.
  unfold asm_rawNegLS, asm_addq. repeat (apply Forall_app; split); try (apply tok_X; raw_ok); repeat (apply Forall_cons || apply Forall_nil); unfold X86T.st, X86T.lab; cbn [tok]; try exact Logic.I; raw_ok.
Qed.
Lemma rawAddLS_ok n : Forall instr_ok (asm_rawAddLS n). Proof. unfold asm_rawAddLS, asm_subq. raw_ok. Qed.
Lemma rawSubLS_ok n : Forall instr_ok (asm_rawSubLS n). Proof. unfold asm_rawSubLS, asm_addq. raw_ok. Qed.
Lemma rawSubSL_ok n : Forall instr_ok (asm_rawSubSL n). Proof. unfold asm_rawSubSL, asm_addq. raw_ok. Qed.

Section Inv.
Variable q : Z.
Variable P : zq.
Hypothesis OK : zq_ok q P.
Notation n := (p_n64 P).
Notation opt := (p_opt P).
Notation sb := (stackBytes n opt).
Variable lay : sym -> Z.
Variable ra : Z.
Hypothesis Hra : 0 <= ra < B.
Variable m0 : mach.
Variable D : Z.
Hypothesis Rdy : xready P lay D m0.
Notation sp0 := (regs m0 RSP).
Variable pr : Z.
Variable K : nat.
Hypothesis Opr : pr + 8 * Z.of_nat K <= sp0 - D \/ sp0 + 8 <= pr.
Hypothesis Dpr : forall s, lay s + 8 * Z.of_nat (length (data P s)) <= pr \/ pr + 8 * Z.of_nat K <= lay s.
Hypothesis Bpr : K <> 0%nat -> 0 <= pr /\ pr mod 8 = 0 /\ pr + 8 * Z.of_nat K <= B.

(** nothing but the first [k] words at [pr] and the stack is changed *)
Definition Inv (k : nat) (m : mach) : Prop :=
  words m /\ (forall x, ~ (pr <= x < pr + 8 * Z.of_nat k) -> ~ (sp0 - D <= x < sp0) -> mem m x = mem m0 x) /\ (forall r, In r [RBX; R12; R13; R14; R15] -> regs m r = regs m0 r).
Lemma inv0 : Inv 0 m0. Proof. split; [apply Rdy|]. split; intros; reflexivity. Qed.
Lemma inv_mono k k' m : (k <= k')%nat -> Inv k m -> Inv k' m.
Proof. intros H (W & M & R). split; [exact W|]. split; [|exact R]. intros x H1 H2. apply M; [lia|exact H2]. Qed.
Lemma sp_range : 0 <= sp0 < B. Proof. apply Rdy. Qed.
(** the stack pointer [sp] leaves room for [S] bytes *)
Definition spok (sp S : Z) : Prop := sp mod 8 = 0 /\ sp0 - D <= sp - S /\ sp <= sp0.
Definition dest_ok (k' : nat) (sp d : Z) (k : nat) : Prop := 0 <= d /\ d mod 8 = 0 /\ ((pr <= d /\ d + 8 * Z.of_nat k <= pr + 8 * Z.of_nat k') \/ (sp <= d /\ d + 8 * Z.of_nat k <= sp0)).
Definition arr (m : mach) (S : Z) (p : Z) (l : list Z) : Prop := at_addr m p l /\ (p + 8 * Z.of_nat (length l) <= regs m RSP - S \/ regs m RSP <= p).
Lemma data_at k m s : (k <= K)%nat -> Inv k m -> at_addr m (lay s) (data P s).
Proof.
  intros Hk (W & M & R). destruct (xr_data _ _ _ _ Rdy s) as [A O]. eapply at_ext; [|exact A]. intros x Hx. unfold xoff in O. pose proof (Dpr s) as Ds. apply M; [|lia].
  assert (8 * Z.of_nat k <= 8 * Z.of_nat K) by lia. lia.
Qed.
Lemma data_arr k m s S : (k <= K)%nat -> Inv k m -> spok (regs m RSP) S -> 0 <= S -> arr m S (lay s) (data P s).
Proof.
  intros Hk HI (S1 & S2 & S3) HS. split; [exact (data_at k m s Hk HI)|]. destruct (xr_data _ _ _ _ Rdy s) as [A O]. unfold xoff in O. lia.
Qed.
(** an array of the caller *)
Lemma user_at k m p l : Inv k m -> at_addr m0 p l -> xoff D m0 p (length l) -> (p + 8 * Z.of_nat (length l) <= pr \/ pr + 8 * Z.of_nat k <= p) -> at_addr m p l.
Proof. intros (W & M & R) A O H. eapply at_ext; [|exact A]. intros x Hx. unfold xoff in O. apply M; lia. Qed.
Lemma user_arr k m p l S : Inv k m -> spok (regs m RSP) S -> 0 <= S -> at_addr m0 p l -> xoff D m0 p (length l) -> (p + 8 * Z.of_nat (length l) <= pr \/ pr + 8 * Z.of_nat k <= p) -> arr m S p l.
Proof. intros HI (S1 & S2 & S3) HS A O H. split; [exact (user_at k m p l HI A O H)|]. unfold xoff in O. lia. Qed.
Lemma inv_eff k k' d kd S m m' : (k <= k')%nat -> Inv k m -> Eff d kd S m m' -> spok (regs m RSP) S -> 0 <= S -> dest_ok k' (regs m RSP) d kd -> Inv k' m'.
Proof.
  intros Hk (W & M & R) (W' & R' & M') (S1 & S2 & S3) HS (D1 & D2 & D3). split; [exact W'|]. split.
  - intros x H1 H2. rewrite M' by lia. apply M; lia.
  - intros r Hr. rewrite R'; [apply R, Hr|]. left. unfold callee_saved. cbn [In] in *. tauto.
Qed.
Lemma inv_setr k m r v : Inv k m -> 0 <= v < B -> ~ In r [RBX; R12; R13; R14; R15] -> Inv k (setr m r v).
Proof. intros (W & M & R) Hv Hr. split; [apply words_setr; assumption|]. split; [exact M|]. intros s Hs. cbn [setr regs]. rewrite rupd_neq by (intros ->; exact (Hr Hs)). apply R, Hs. Qed.
Lemma inv_setf k m f : Inv k m -> Inv k (setf m f). Proof. intros H. exact H. Qed.
Lemma inv_stk k m a v : Inv k m -> 0 <= v < B -> sp0 - D <= a < sp0 -> Inv k (setm m a v).
Proof. intros (W & M & R) Hv Ha. split; [apply words_setm; assumption|]. split; [|exact R]. intros x H1 H2. cbn [setm mem]. rewrite mupd_neq by lia. apply M; assumption. Qed.
Lemma inv_dst k m j v : Inv k m -> 0 <= v < B -> (j < k)%nat -> Inv k (setm m (pr + 8 * Z.of_nat j) v).
Proof. intros (W & M & R) Hv Ha. split; [apply words_setm; assumption|]. split; [|exact R]. intros x H1 H2. cbn [setm mem]. rewrite mupd_neq by lia. apply M; assumption. Qed.

(** *** calls *)
Section C.
Variable k : nat.
Variable m : mach.
Hypothesis Hk : (k <= K)%nat.
Hypothesis HI : Inv k m.
Notation sp := (regs m RSP).
Lemma words_pushed : 8 <= sp -> words (pushed ra m).
Proof. intros H. unfold pushed. destruct HI as (W & _). pose proof (proj1 W RSP) as R. apply words_setr; [apply words_setm; assumption|lia]. Qed.
Lemma regs_pushed r : r <> RSP -> regs (pushed ra m) r = regs m r.
Proof. intros H. unfold pushed. cbn [setr setm regs]. apply rupd_neq, H. Qed.
Lemma rsp_pushed : regs (pushed ra m) RSP = sp - 8.
Proof. unfold pushed. cbn [setr setm regs]. apply rupd_eq. Qed.
Lemma at_pushed p l : at_addr m p l -> p + 8 * Z.of_nat (length l) <= sp - 8 \/ sp <= p -> at_addr (pushed ra m) p l.
Proof. intros A H. eapply at_ext; [|exact A]. intros x Hx. unfold pushed. cbn [setr setm mem]. apply mupd_neq. lia. Qed.
Lemma spok_low S : spok sp S -> 0 <= sp - S. Proof. intros (S1 & S2 & S3). pose proof (xr_room _ _ _ _ Rdy). lia. Qed.
Lemma sp_B : sp < B. Proof. apply HI. Qed.
Lemma sb8 : 0 <= sb. Proof. unfold stackBytes. lia. Qed.
Lemma dest_off k' S d kd : (k' <= K)%nat -> spok sp S -> dest_ok k' sp d kd -> d + 8 * Z.of_nat kd <= sp - S \/ sp <= d.
Proof. intros Hk' (S1 & S2 & S3) (D1 & D2 & D3). lia. Qed.
Lemma dest_top k' d kd : (k' <= K)%nat -> (1 <= kd)%nat -> dest_ok k' sp d kd -> d + 8 * Z.of_nat kd <= B.
Proof.
  intros Hk' Hkd (D1 & D2 & D3). pose proof sp_range. destruct D3 as [D3|D3]; [|lia]. assert (K <> 0%nat) by (intros ->; assert (k' = 0)%nat by lia; subst k'; lia). destruct (Bpr H0) as (B1 & B2 & B3). lia.
Qed.
Lemma dest_data k' s d kd S : (k' <= K)%nat -> (1 <= kd)%nat -> spok sp S -> 0 <= S -> dest_ok k' sp d kd -> lay s + 8 * Z.of_nat (length (data P s)) <= d \/ d + 8 * Z.of_nat kd <= lay s.
Proof.
  intros Hk' Hkd (S1 & S2 & S3) HS (D1 & D2 & D3). destruct (xr_data _ _ _ _ Rdy s) as [A O]. unfold xoff in O. pose proof (Dpr s). lia.
Qed.
(** the Montgomery routines *)
Notation MS := (8 + sb).
Lemma op_pushed p l : arr m MS p l -> operand n opt (pushed ra m) p l.
Proof. intros [A O]. pose proof sb8. split; [apply at_pushed; [exact A|lia]|]. unfold off_stack. rewrite rsp_pushed. lia. Qed.
Lemma loaded_pushed : spok sp MS -> loaded P lay (pushed ra m).
Proof.
  intros S. pose proof sb8. pose proof (spok_low _ S). pose proof sp_B. constructor.
  - apply words_pushed. lia.
  - unfold stack_ok. rewrite rsp_pushed. split; [apply al8m, S|]. lia.
  - apply op_pushed. apply (data_arr k m Sq); [exact Hk|exact HI|exact S|lia].
  - apply op_pushed. apply (data_arr k m Snp); [exact Hk|exact HI|exact S|lia].
Qed.
Variable k' : nat.
Hypothesis Hkk : (k <= k' <= K)%nat.
Notation d := (regs m RDI).
Lemma target_pushed : spok sp MS -> dest_ok k' sp d n -> target n opt (pushed ra m) (regs (pushed ra m) RDI).
Proof.
  intros S Hd. rewrite regs_pushed by discriminate. pose proof (zk_n _ _ OK) as N1. pose proof (dest_top k' d n ltac:(lia) N1 Hd). pose proof (dest_off k' MS d n ltac:(lia) S Hd). destruct Hd as (H1 & H2 & H3). split; [exact H1|]. split; [exact H2|]. split; [assumption|].
  unfold off_stack. rewrite rsp_pushed. lia.
Qed.
Definition done (l : list Z) (S : Z) (m' : mach) : Prop := Eff d (length l) S m m' /\ at_addr m' d l /\ Inv k' m'.
Lemma done_of l S m' : 0 <= S -> spok sp S -> dest_ok k' sp d (length l) -> (1 <= length l)%nat -> words m' -> (forall r, keptR r -> regs m' r = regs m r) ->
  (forall x, ~ (d <= x < d + 8 * Z.of_nat (length l)) -> ~ (sp - S <= x < sp) -> mem m' x = mem m x) -> (forall j, (j < length l)%nat -> mem m' (d + 8 * Z.of_nat j) = nth j l 0) -> done l S m'.
Proof.
  intros HS S1 Hd Hl W R M A. assert (EF : Eff d (length l) S m m') by (split; [exact W|split; [exact R|exact M]]). split; [exact EF|]. split.
  - pose proof (dest_top k' d (length l) ltac:(lia) Hl Hd). destruct Hd as (H1 & H2 & _). split; [exact H1|]. split; [exact H2|]. split; [assumption|exact A].
  - apply (inv_eff k k' d (length l) S m m'); try assumption. lia.
Qed.
Lemma done_returned code m' l : spok sp MS -> dest_ok k' sp d n -> limbs_ok n l -> (exists U, routine n opt U = Some code) -> call lay code (pushed ra m) = Some m' -> returned n opt (regs (pushed ra m) RDI) l (pushed ra m) m' -> done l MS m'.
Proof.
  intros S Hd Hl [U HU] E (R1 & R2 & R3 & R4). rewrite regs_pushed in * by discriminate. rewrite rsp_pushed in *. pose proof (spok_low _ S) as SL. pose proof sb8. pose proof sp_B. pose proof (proj1 Hl) as Ll. pose proof (zk_n _ _ OK) as N1.
  apply done_of; [lia|exact S|rewrite Ll; exact Hd|lia| | | |exact R1].
  - apply (call_words lay code (pushed ra m)); [apply words_pushed; lia| |exact E]. apply (routine_ok n opt U); [lia|exact HU].
  - intros r Hr. destruct (reg_dec r RSP) as [->|N]; [rewrite R4, Z.mod_small by lia; lia|]. rewrite R3; [apply regs_pushed, N|]. unfold kept. destruct Hr as [Hr|[Hr|Hr]]; tauto.
  - intros x H1 H2. rewrite R2 by lia. unfold pushed. cbn [setr setm mem]. apply mupd_neq. lia.
Qed.
Lemma c_mul a b : spok sp MS -> dest_ok k' sp d n -> limbs_ok n a -> limbs_ok n b -> arr m MS (regs m RSI) a -> arr m MS (regs m RDX) b -> eval b < q ->
  exists m' l, f_rawMMul lay n opt (pushed ra m) = Some m' /\ limbs_ok n l /\ eval l < q /\ (eval l * B ^ Z.of_nat n) mod q = (eval a * eval b) mod q /\ done l MS m'.
Proof.
  intros S Hd Ha Hb Pa Pb Hbq. destruct (mul_call q P OK lay (pushed ra m) (loaded_pushed S) (target_pushed S Hd) a b Ha) as (code & E1 & m' & l & E2 & L1 & L2 & L3 & R);
    [rewrite regs_pushed by discriminate; apply op_pushed, Pa|exact Hb|rewrite regs_pushed by discriminate; apply op_pushed, Pb|exact Hbq|].
  exists m', l. unfold f_rawMMul, gencall. rewrite E1. split; [exact E2|]. split; [exact L1|]. split; [exact L2|]. split; [exact L3|]. apply (done_returned code); try assumption. eexists. exact E1.
Qed.
Lemma c_square a : spok sp MS -> dest_ok k' sp d n -> limbs_ok n a -> arr m MS (regs m RSI) a -> eval a < q ->
  exists m' l, f_rawMSquare lay n opt (pushed ra m) = Some m' /\ limbs_ok n l /\ eval l < q /\ (eval l * B ^ Z.of_nat n) mod q = (eval a * eval a) mod q /\ done l MS m'.
Proof.
  intros S Hd Ha Pa Hbq. destruct (square_call q P OK lay (pushed ra m) (loaded_pushed S) (target_pushed S Hd) a Ha) as (code & E1 & m' & l & E2 & L1 & L2 & L3 & R);
    [rewrite regs_pushed by discriminate; apply op_pushed, Pa|exact Hbq|].
  exists m', l. unfold f_rawMSquare, gencall. rewrite E1. split; [exact E2|]. split; [exact L1|]. split; [exact L2|]. split; [exact L3|]. apply (done_returned code); try assumption. eexists. exact E1.
Qed.
Lemma c_mul1 a : neededFor n opt <> 12%nat -> spok sp MS -> dest_ok k' sp d n -> limbs_ok n a -> arr m MS (regs m RSI) a -> eval a < q ->
  exists m' l, f_rawMMul1 lay n opt (pushed ra m) = Some m' /\ limbs_ok n l /\ eval l < q /\ (eval l * B ^ Z.of_nat n) mod q = (regs m RDX * eval a) mod q /\ done l MS m'.
Proof.
  intros N12 S Hd Ha Pa Hbq. destruct (mul1_call q P OK lay (pushed ra m) (loaded_pushed S) (target_pushed S Hd) a Ha) as (code & E1 & m' & l & E2 & L1 & L2 & L3 & R);
    [rewrite regs_pushed by discriminate; apply op_pushed, Pa|exact N12|exact Hbq|]. rewrite regs_pushed in L3 by discriminate.
  exists m', l. unfold f_rawMMul1, gencall. rewrite E1. split; [exact E2|]. split; [exact L1|]. split; [exact L2|]. split; [exact L3|]. apply (done_returned code); try assumption. eexists. exact E1.
Qed.
Lemma c_from a : neededFor n opt <> 12%nat -> n <> 7%nat -> spok sp MS -> dest_ok k' sp d n -> limbs_ok n a -> arr m MS (regs m RSI) a ->
  exists m' l, f_rawFromMontgomery lay n opt (pushed ra m) = Some m' /\ limbs_ok n l /\ eval l < q /\ (eval l * B ^ Z.of_nat n) mod q = eval a mod q /\ done l MS m'.
Proof.
  intros N12 N7 S Hd Ha Pa. destruct (from_call q P OK lay (pushed ra m) (loaded_pushed S) (target_pushed S Hd) a Ha) as (code & E1 & m' & l & E2 & L1 & L2 & L3 & R);
    [rewrite regs_pushed by discriminate; apply op_pushed, Pa|exact N12|exact N7|].
  exists m', l. unfold f_rawFromMontgomery, gencall. rewrite E1. split; [exact E2|]. split; [exact L1|]. split; [exact L2|]. split; [exact L3|]. apply (done_returned code); try assumption. eexists. exact E1.
Qed.
(** the straight-line routines use no stack but the return address *)
Lemma done_stored clob m' l : (forall r, In r clob -> In r [RAX; RDX; RSI]) -> spok sp 8 -> dest_ok k' sp d (length l) -> (1 <= length l)%nat -> words m' -> stored clob (regs (pushed ra m) RDI) l (pushed ra m) m' -> done l 8 m'.
Proof.
  intros Hc S Hd Hl W (R1 & R2 & R3 & R4). rewrite regs_pushed in * by discriminate. rewrite rsp_pushed in *. pose proof (spok_low _ S) as SL. pose proof sp_B.
  apply done_of; [lia|exact S|exact Hd|exact Hl|exact W| | |exact R1].
  - intros r Hr. destruct (reg_dec r RSP) as [->|N]; [rewrite R4, Z.mod_small by lia; lia|]. rewrite R3; [apply regs_pushed, N| |exact N]. intros Hi. apply Hc in Hi. unfold keptR, callee_saved in Hr. cbn [In] in *. intuition congruence.
  - intros x H1 H2. rewrite R2 by lia. unfold pushed. cbn [setr setm mem]. apply mupd_neq. lia.
Qed.
Lemma ret_pushed kd : spok sp 8 -> dest_ok k' sp d kd -> forall j, (j < kd)%nat -> regs (pushed ra m) RSP <> d + 8 * Z.of_nat j.
Proof. intros S Hd j Hj. pose proof (dest_off k' 8 d kd ltac:(lia) S Hd). rewrite rsp_pushed. lia. Qed.
Lemma ptr_dest kd : (1 <= kd)%nat -> dest_ok k' sp d kd -> X86RawFacts.ptr d kd.
Proof. intros Hl Hd. pose proof (dest_top k' d kd ltac:(lia) Hl Hd). destruct Hd as (H1 & H2 & _). split; [exact H1|]. split; [exact H2|assumption]. Qed.
Lemma q_pushed : spok sp 8 -> X86RawFacts.ptr (lay Sq) n /\ vals (pushed ra m) (lay Sq) n = q.
Proof.
  intros S. destruct (data_arr k m Sq 8 Hk HI S ltac:(lia)) as [A O]. apply (q_ptr q P OK lay (pushed ra m)). apply at_pushed; assumption.
Qed.
Lemma at_vals m1 p l k1 : limbs_ok k1 l -> at_addr m1 p l -> X86RawFacts.ptr p k1 /\ vals m1 p k1 = eval l.
Proof.
  intros [E _] (A1 & A2 & A3 & A4). rewrite E in A3, A4. split; [split; [exact A1|split; [exact A2|exact A3]]|]. unfold vals. rewrite <- (es_nth l k1 E). apply es_ext. exact A4.
Qed.
Lemma opn_pushed p l k1 : limbs_ok k1 l -> arr m 8 p l -> X86RawFacts.ptr p k1 /\ vals (pushed ra m) p k1 = eval l.
Proof. intros Hl [A O]. apply at_vals; [exact Hl|]. apply at_pushed; assumption. Qed.
Lemma q_apart : spok sp 8 -> dest_ok k' sp d n -> apart n (lay Sq) d.
Proof. intros S Hd. pose proof (dest_data k' Sq d n 8 ltac:(lia) (zk_n _ _ OK) S ltac:(lia) Hd) as H. cbn [data] in H. rewrite (zk_q _ _ OK), to_limbs_length in H. exact H. Qed.
Hypothesis S8 : spok sp 8.
Lemma wp8 : words (pushed ra m). Proof. apply words_pushed. pose proof (spok_low _ S8). lia. Qed.
Lemma rdi_pushed : regs (pushed ra m) RDI = d. Proof. apply regs_pushed. discriminate. Qed.
Ltac sub1 := intros r Hr; cbn [In] in *; tauto.
Ltac raw_call f ok cl := 
  let m' := fresh "m'" in let l := fresh "l" in let E := fresh "E" in let L1 := fresh "L1" in let L2 := fresh "L2" in let SS := fresh "SS" in
  edestruct (call_ofC lay n (pushed ra m) d (zk_n _ _ OK) cl) as (m' & l & E & L1 & L2 & SS);
  [apply ret_pushed; assumption|cbn [In]; intuition discriminate|eapply f; [exact wp8|exact rdi_pushed|apply ptr_dest; [apply (zk_n _ _ OK)|assumption]|apply (zk_n _ _ OK)|apply q_pushed, S8|apply q_apart; assumption|..]|
   exists m', l; split; [exact E|]; split; [exact L1|]; split; [rewrite L2|apply (done_stored cl); [sub1|exact S8|rewrite (proj1 L1); assumption|rewrite (proj1 L1); apply (zk_n _ _ OK)|apply (call_words lay _ (pushed ra m) m' wp8 (ok n) E)|rewrite rdi_pushed; exact SS]]].
Lemma Final_C k1 m1 p v s : Final k1 m1 p v s -> FinalC k1 m1 p [RAX] v s.
Proof. intros [K1 K2 K3 K4 K5]. constructor; try assumption. intros r Hr. apply K2. intros ->. apply Hr. left. reflexivity. Qed.
Section RawAB.
Variables a b : list Z.
Hypothesis Hd : dest_ok k' sp d n.
Hypothesis Ha : limbs_ok n a.
Hypothesis Aq : eval a < q.
Section SI.
Hypothesis Pa : arr m 8 (regs m RSI) a.
Hypothesis Sa : same_or_apart n (regs m RSI) d.
Lemma rsi_p : regs (pushed ra m) RSI = regs m RSI. Proof. apply regs_pushed. discriminate. Qed.
Lemma rdx_p : regs (pushed ra m) RDX = regs m RDX. Proof. apply regs_pushed. discriminate. Qed.
Lemma qv : vals (pushed ra m) (lay Sq) n = q. Proof. apply q_pushed, S8. Qed.
Lemma av : vals (pushed ra m) (regs m RSI) n = eval a. Proof. apply (opn_pushed _ a n Ha Pa). Qed.
Lemma ap : X86RawFacts.ptr (regs m RSI) n. Proof. apply (opn_pushed _ a n Ha Pa). Qed.
Section SB.
Hypothesis Hb : limbs_ok n b.
Hypothesis Bq : eval b < q.
Hypothesis Pb : arr m 8 (regs m RDX) b.
Hypothesis Sb : same_or_apart n (regs m RDX) d.
Lemma bv : vals (pushed ra m) (regs m RDX) n = eval b. Proof. apply (opn_pushed _ b n Hb Pb). Qed.
Lemma bp : X86RawFacts.ptr (regs m RDX) n. Proof. apply (opn_pushed _ b n Hb Pb). Qed.
Lemma c_add : exists m' l, f_rawAdd lay n (pushed ra m) = Some m' /\ limbs_ok n l /\ eval l = (eval a + eval b) mod q /\ done l 8 m'.
Proof.
  raw_call (fun H1 H2 H3 H4 H5 H6 => fun A A2 => ww_mono lay _ _ _ _ (Final_C _ _ _ _) (rawAdd_ww lay n (pushed ra m) d H1 H2 H3 H4 H5 H6 _ _ rsi_p rdx_p ap bp Sa Sb A A2)) rawAdd_ok [RAX].
  - rewrite ?av, ?bv, ?qv. assumption.
  - rewrite ?av, ?bv, ?qv. assumption.
  - rewrite av, bv, qv. reflexivity.
Qed.
Lemma c_sub : exists m' l, f_rawSub lay n (pushed ra m) = Some m' /\ limbs_ok n l /\ eval l = (eval a - eval b) mod q /\ done l 8 m'.
Proof.
  raw_call (fun H1 H2 H3 H4 H5 H6 => fun A A2 => ww_mono lay _ _ _ _ (Final_C _ _ _ _) (rawSub_ww lay n (pushed ra m) d H1 H2 H3 H4 H5 H6 _ _ rsi_p rdx_p ap bp Sa Sb A A2)) rawSub_ok [RAX].
  - rewrite ?av, ?bv, ?qv. assumption.
  - rewrite ?av, ?bv, ?qv. assumption.
  - rewrite av, bv, qv. reflexivity.
Qed.
End SB.
Lemma c_neg : exists m' l, f_rawNeg lay n (pushed ra m) = Some m' /\ limbs_ok n l /\ eval l = (- eval a) mod q /\ done l 8 m'.
Proof.
  raw_call (fun H1 H2 H3 H4 H5 H6 => fun A => ww_mono lay _ _ _ _ (Final_C _ _ _ _) (rawNeg_ww lay n (pushed ra m) d H1 H2 H3 H4 H5 H6 _ rsi_p ap Sa A)) rawNeg_ok [RAX].
  - rewrite av, qv. assumption.
  - rewrite av, qv. reflexivity.
Qed.
Lemma c_addLS : regs m RDX <= q -> exists m' l, f_rawAddLS lay n (pushed ra m) = Some m' /\ limbs_ok n l /\ eval l = (regs m RDX + eval a) mod q /\ done l 8 m'.
Proof.
  intros Hx. raw_call (fun H1 H2 H3 H4 H5 H6 => fun A A2 => rawAddLS_ww lay n (pushed ra m) d H1 H2 H3 H4 H5 H6 _ ap Sa rsi_p A A2) rawAddLS_ok [RAX; RDX].
  - rewrite ?av, ?qv, ?rdx_p. assumption.
  - rewrite ?av, ?qv, ?rdx_p. assumption.
  - rewrite av, qv, rdx_p. reflexivity.
Qed.
Lemma c_subLS : regs m RDX <= q -> exists m' l, f_rawSubLS lay n (pushed ra m) = Some m' /\ limbs_ok n l /\ eval l = (eval a - regs m RDX) mod q /\ done l 8 m'.
Proof.
  intros Hx. raw_call (fun H1 H2 H3 H4 H5 H6 => fun A A2 => rawSubLS_ww lay n (pushed ra m) d H1 H2 H3 H4 H5 H6 _ ap Sa rsi_p A A2) rawSubLS_ok [RAX; RDX].
  - rewrite ?av, ?qv, ?rdx_p. assumption.
  - rewrite ?av, ?qv, ?rdx_p. assumption.
  - rewrite av, qv, rdx_p. reflexivity.
Qed.
Lemma c_negLS : apart n (regs m RSI) d -> 1 <= regs m RDX <= q -> exists m' l, f_rawNegLS lay ra n (pushed ra m) = Some m' /\ limbs_ok n l /\ eval l = (- eval a - regs m RDX) mod q /\ done l 8 m'.
Proof.
  intros Da Hx. destruct (rawNegLS_call lay ra n (pushed ra m) d wp8 rdi_pushed) with (pa := regs m RSI) as (m' & l & E & L1 & L2 & SS); try assumption.
  - apply ptr_dest; [apply (zk_n _ _ OK)|assumption].
  - apply (zk_n _ _ OK).
  - apply q_pushed, S8.
  - apply q_apart; assumption.
  - apply ret_pushed; assumption.
  - exact rsi_p.
  - exact ap.
  - rewrite av, qv. assumption.
  - rewrite rdx_p, qv. exact Hx.
  - exists m', l. split; [exact E|]. split; [exact L1|]. split; [rewrite L2, av, qv, rdx_p; reflexivity|].
    apply (done_stored [RAX; RDX]); [sub1|exact S8|rewrite (proj1 L1); assumption|rewrite (proj1 L1); apply (zk_n _ _ OK)|apply (tcall_words lay ra _ (pushed ra m) m' wp8 (negLS_tok n) E)|rewrite rdi_pushed; exact SS].
Qed.
End SI.
Section SX.
Hypothesis Pa : arr m 8 (regs m RDX) a.
Hypothesis Sa : same_or_apart n (regs m RDX) d.
Lemma c_subSL : regs m RSI < q -> exists m' l, f_rawSubSL lay n (pushed ra m) = Some m' /\ limbs_ok n l /\ eval l = (regs m RSI - eval a) mod q /\ done l 8 m'.
Proof.
  intros Hx. destruct (opn_pushed _ a n Ha Pa) as [ap' av']. raw_call (fun H1 H2 H3 H4 H5 H6 => fun A A2 => rawSubSL_ww lay n (pushed ra m) d H1 H2 H3 H4 H5 H6 _ ap' Sa rdx_p A A2) rawSubSL_ok [RAX; RSI].
  - rewrite ?av', ?qv, ?rsi_p. assumption.
  - rewrite ?av', ?qv, ?rsi_p. assumption.
  - rewrite av', qv, rsi_p. reflexivity.
Qed.
End SX.
End RawAB.
Lemma c_copyS2L v : dest_ok k' sp d (S n) -> regs m RSI = v mod B -> - (B / 2) <= v < B / 2 -> - q <= v < q -> exists m' l, f_rawCopyS2L lay ra n (pushed ra m) = Some m' /\ limbs_ok n l /\ eval l = v mod q /\ done (2 ^ 63 :: l) 8 m'.
Proof.
  intros Hd Ev V1 V2. pose proof (zk_n _ _ OK) as N1. destruct (rawCopyS2L_call lay ra n (pushed ra m) d wp8 rdi_pushed) with (v := v) as (m' & l & E & L1 & L2 & SS); try assumption.
  - apply ptr_dest; [lia|assumption].
  - apply q_pushed, S8.
  - pose proof (dest_data k' Sq d (S n) 8 ltac:(lia) ltac:(lia) S8 ltac:(lia) Hd) as H. cbn [data] in H. rewrite (zk_q _ _ OK), to_limbs_length in H. exact H.
  - apply ret_pushed; assumption.
  - rewrite qv. exact V2.
  - exists m', l. split; [exact E|]. split; [exact L1|]. split; [rewrite L2, qv; reflexivity|].
    apply (done_stored [RAX; RSI]); [sub1|exact S8|cbn [length]; rewrite (proj1 L1); assumption|cbn [length]; lia|apply (tcall_words lay ra _ (pushed ra m) m' wp8 (copyS2L_tok n) E)|rewrite rdi_pushed; exact SS].
Qed.
Lemma c_copy L : dest_ok k' sp d (S n) -> limbs_ok (S n) L -> arr m 8 (regs m RSI) L -> same_or_apart (S n) (regs m RSI) d -> exists m', f_copy lay n (pushed ra m) = Some m' /\ done L 8 m'.
Proof.
  intros Hd HL PL SL. destruct (opn_pushed _ L (S n) HL PL) as [ap' av']. edestruct (call_of lay (S n) (pushed ra m) d) as (m' & l & E & L1 & L2 & SS).
  - apply ret_pushed; assumption.
  - eapply (rawCopy_ww lay (S n) (pushed ra m) d wp8 rdi_pushed); [apply ptr_dest; [lia|assumption]|lia|exact rsi_p|exact ap'|exact SL].
  - exists m'. split; [exact E|]. rewrite av' in L2. assert (l = L) as -> by (apply (eval_inj (S n)); assumption).
    apply (done_stored [RAX]); [sub1|exact S8|rewrite (proj1 HL); assumption|rewrite (proj1 HL); lia|apply (call_words lay _ (pushed ra m) m' wp8 (rawCopy_ok (S n)) E)|rewrite rdi_pushed; exact SS].
Qed.
End C.
End Inv.
