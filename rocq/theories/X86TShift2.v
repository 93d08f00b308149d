(** The frame of shl and shr, and their last parts. *)
From Coq Require Import ZArith Znumtheory List Bool Arith Lia.
From Verif Require Import Limbs LimbsFacts Gen GenFacts Spec Raw RawFacts Fr FrSpec X86 X86Gen X86Sim X86Mont X86Call X86Routines X86Raw X86RawFacts X86RawFacts2 X86RawFacts3 X86Final X86T X86TWords X86TFacts X86THelp X86THelp2 X86THelp3 X86TSpec X86TInv X86TConv X86TFrame X86TLoop X86TBitLoop X86TShiftVal X86TRawShift X86TFinal5 X86TShift.
From Verif Require X86TAdd X86TCmp X86TBit.
Import ListNotations.
Open Scope Z_scope.

Lemma sx64_id x : - 2 ^ 63 <= x < 2 ^ 63 -> sx64 (x mod B) = x.
Proof. intros H. unfold sx64. change (B / 2) with (2 ^ 63). assert (BB : B = 2 ^ 64) by reflexivity. destruct (Z.neg_nonneg_cases x); [rewrite <- (Z.mod_add x 1), Z.mod_small by lia|rewrite Z.mod_small by lia]; destruct (_ <? _) eqn:E; lia. Qed.
Section Tok.
Variable n : nat.
Variable bl : Z.
Hypothesis Hn : Z.of_nat n < B.
Hypothesis Hb : 0 <= bl < B.
Ltac imm := assert (HI : 0 < 64 /\ 64 < B) by (split; reflexivity).
Lemma head_tok : Forall tok (rawHead bl). Proof. imm. unfold rawHead. toks. Qed.
Lemma tails_tok : Forall tok (rawTails n).
Proof. unfold rawTails. repeat (apply Forall_app; split); [toks|apply tok_X, rawCopy_ok|toks|apply tok_X, rawZero_ok|toks]. Qed.
Lemma midr_tok : Forall tok midr. Proof. imm. unfold midr. toks. Qed.
Lemma base_tok : Forall tok shlBase. Proof. imm. unfold shlBase. toks. Qed.
Lemma limbR_tok' i : Forall tok (shrLimb n i). Proof. unfold shrLimb. toks. Qed.
Lemma rawShr_tok : Forall tok (asm_rawShr n bl).
Proof.
  imm. rewrite shr_split, !Forall_app. repeat match goal with |- _ /\ _ => split end; [exact head_tok|exact midr_tok|unfold premR; toks|apply Forall_flat; exact limbR_tok'|toks|apply Forall_flat; apply wordR_tok|toks|exact tails_tok].
Qed.
Lemma rawShl_tok : Forall tok (asm_rawShl n bl).
Proof.
  imm. rewrite shl_split. assert (L1 : forall i, In i (rev (seq 0 n)) -> (i < n)%nat) by (intros i Hi; apply in_rev, in_seq in Hi; lia).
  rewrite !Forall_app. repeat match goal with |- _ /\ _ => split end; [exact head_tok|exact midr_tok|unfold premL; toks|exact base_tok| |apply tok_X, binSubQ_ok|toks|exact base_tok|apply Forall_flat_in; intros i Hi; apply wordL_tok, L1, Hi|apply tok_X, binSubQ_ok|toks|exact tails_tok].
  apply Forall_flat_in. intros i Hi. apply L1 in Hi. unfold shlLimb, maskLast, lboMask. destruct (Nat.eqb _ _); cbn [app]; toks.
Qed.
End Tok.
Section Shift.
Variable q : Z.
Variable P : zq.
Hypothesis OK : zq_ok q P.
Notation n := (p_n64 P).
Notation opt := (p_opt P).
Notation bl := (p_bits P).
Notation sb := (stackBytes n opt).
Variable lay : sym -> Z.
Variable ra : Z.
Hypothesis Hra : 0 <= ra < B.
Variable m0 : mach.
Variable D : Z.
Hypothesis HD : sb + 24 * Z.of_nat (S n) + 160 <= D.
Hypothesis Rdy : xready P lay D m0.
Notation sp0 := (regs m0 RSP).
Variable pr : Z.
Hypothesis Dst : xdest P lay D m0 pr.
Hypothesis Edi : regs m0 RDI = pr.
Hypothesis HQ : 2 ^ 32 < q.
Hypothesis HB : bl < 2 ^ 31.
Notation K := (S n).
Notation N8 := (8 * Z.of_nat (S n)).
Notation pd := (pr + 8).
Lemma D_32 : 32 <= D. Proof. pose proof (sb_pos P). lia. Qed.
Lemma D_pos : 0 <= D. Proof. pose proof (sb_pos P). lia. Qed.
Notation Inv := (Inv m0 D pr).
Notation St := (St m0 D pr).
Notation Opr := (Opr P lay m0 D pr Dst).
Notation Dpr := (Dpr P lay m0 D pr Dst).
Notation Bpr := (Bpr P lay m0 D pr Dst).
Notation inv_head := (inv_head P lay m0 D pr Dst).
Notation valRes := (valRes q P).
Notation Res := (X86TAdd.Res P m0 D pr).
Notation sp_al := (sp_al P lay m0 D Rdy).
Ltac inv1 := first [assumption | apply inv_setf | apply inv_setr; [|try lia|nin'] | apply inv_head; [lia| |try lia] | apply (inv_stk m0 D pr K Opr Bpr); [|try lia|try lia] ].
Ltac inv := repeat inv1.
Ltac stt H := let H1 := fresh in let H2 := fresh in let H3 := fresh in let H4 := fresh in pose proof H as (H1 & H2 & H3 & H4); split; [inv|split; [rg; try lia|split; [rg; try lia|rg; try lia]]].
Notation bp := (sp0 - 32).
Definition saved4 (m : mach) : Prop := mem m (sp0 - 8) = regs m0 RBP /\ mem m (sp0 - 16) = regs m0 RSI /\ mem m (sp0 - 24) = regs m0 RDI /\ mem m (sp0 - 32) = regs m0 RDX.
Lemma saved4_ext c m m' : 32 <= c -> (forall x, sp0 - c <= x < sp0 + 8 -> mem m' x = mem m x) -> saved4 m -> saved4 m'.
Proof. intros H E (H1 & H2 & H3 & H4). split; [rewrite E by lia; exact H1|]. split; [rewrite E by lia; exact H2|]. split; [rewrite E by lia; exact H3|rewrite E by lia; exact H4]. Qed.
Definition FS4 (k : nat) (c : Z) (m : mach) : Prop := St k c pr bp m /\ saved4 m.
Lemma b_enter4 rest Q : (forall m', FS4 0 32 m' -> (forall r, r <> RSP -> r <> RBP -> regs m' r = regs m0 r) -> (forall x, ~ (sp0 - 32 <= x < sp0) -> mem m' x = mem m0 x) -> tw lay ra rest Q (m', None)) -> tw lay ra (enter4 ++ rest) Q (m0, None).
Proof.
  intros H. pose proof D_32 as D32. pose proof (xr_room _ _ _ _ Rdy) as RM. pose proof (sp0_top P lay m0 D Rdy) as TOP. pose proof (proj1 (xr_words _ _ _ _ Rdy)) as WR. pose proof (WR RSP). pose proof (WR RBP). pose proof (WR RSI). pose proof (WR RDX). pose proof (WR RDI).
  pose proof (sp_al 8 eq_refl) as A8. pose proof (sp_al 16 eq_refl) as A16. pose proof (sp_al 24 eq_refl) as A24. pose proof (xr_align _ _ _ _ Rdy) as A0. pose proof (inv0 P lay m0 D Rdy pr) as I0.
  unfold enter4. cbn [app]. apply t_push; [exact A0|lia|]. apply t_push; [rg; exact A8|rg; lia|]. rg. replace (sp0 - 8 - 8) with (sp0 - 16) by lia. apply t_push; [rg; exact A16|rg; lia|]. rg. replace (sp0 - 16 - 8) with (sp0 - 24) by lia. apply t_push; [rg; exact A24|rg; lia|]. rg. replace (sp0 - 24 - 8) with (sp0 - 32) by lia. apply t_mov. rg.
  apply H.
  - split; [split; [inv|]; split; [rg; reflexivity|]; split; rg; [exact Edi|reflexivity]|]. split; [rg; rewrite !mupd_neq by lia; apply mupd_eq|]. split; [rg; rewrite !mupd_neq by lia; apply mupd_eq|]. split; [rg; rewrite mupd_neq by lia; apply mupd_eq|rg; apply mupd_eq].
  - intros r N1 N2. cbn [setr setm regs]. rewrite !rupd_neq by assumption. reflexivity.
  - intros x Hx. rg. rewrite !mupd_neq by lia. reflexivity.
Qed.
Lemma b_leave4 c di m rest Q : St K c di bp m -> saved4 m -> (forall m', St K 0 pr (regs m0 RBP) m' -> (forall x, mem m' x = mem m x) -> tw lay ra (TRet :: rest) Q (m', None)) -> tw lay ra (leave4 ++ rest) Q (m, None).
Proof.
  intros ST (V1 & V2 & V3 & V4) H. pose proof D_32 as D32. pose proof (xr_room _ _ _ _ Rdy) as RM. pose proof (sp0_top P lay m0 D Rdy) as TOP. pose proof (proj1 (xr_words _ _ _ _ Rdy)) as WR. pose proof (WR RSP). pose proof (WR RBP). pose proof (WR RSI). pose proof (WR RDX). pose proof (WR RDI). pose proof ST as (_ & SP & DI & EB).
  pose proof (sp_al 8 eq_refl) as A8. pose proof (sp_al 16 eq_refl) as A16. pose proof (sp_al 24 eq_refl) as A24. pose proof (sp_al 32 eq_refl) as A32.
  unfold leave4. cbn [app]. apply t_mov. rewrite EB. apply t_pop; [rg; exact A32|rg; lia|rg; lia|]. rg. rewrite V4. replace (sp0 - 32 + 8) with (sp0 - 24) by lia. apply t_pop; [rg; exact A24|rg; lia|rg; lia|]. rg. rewrite V3. replace (sp0 - 24 + 8) with (sp0 - 16) by lia. apply t_pop; [rg; exact A16|rg; lia|rg; lia|]. rg. rewrite V2. replace (sp0 - 16 + 8) with (sp0 - 8) by lia. apply t_pop; [rg; exact A8|rg; lia|rg; lia|]. rg. rewrite V1. replace (sp0 - 8 + 8) with (sp0 - 0) by lia.
  apply H; [stt ST|intros x; reflexivity].
Qed.
Lemma fs_mono k k' c m : (k <= k')%nat -> FS4 k c m -> FS4 k' c m.
Proof. intros H ((H1 & H2) & H3). split; [split; [exact (inv_mono m0 D pr K Bpr k k' m H H1)|exact H2]|exact H3]. Qed.
(** a short result *)
Lemma r_short c m v rest : FS4 0 c m -> regs m RAX = v -> 0 <= v < 2 ^ 31 -> tnolab l_ret rest = true -> tw lay ra (X86T.st RDI 0 RAX :: leave4 ++ rest) (Res (valRes v)) (m, None).
Proof.
  intros F E R HL. pose proof (pr_facts q P OK lay m0 D pr Dst) as (P1 & P2 & P3). pose proof Opr as OP. pose proof D_32 as D32. destruct (fs_mono 0 1 c m ltac:(lia) F) as (ST & (V1 & V2 & V3 & V4)). assert (VB : 2 ^ 31 < B) by reflexivity.
  apply (t_st lay ra _ _ _ _ pr); [destruct ST as (_ & _ & -> & _); rewrite Z.add_0_r; apply Z.mod_small; lia|exact P2|]. rewrite E. set (m2 := setm m pr v).
  assert (F2 : FS4 1 c m2). { split; [unfold m2; stt ST|]. split; [|split; [|split]]; unfold m2; rg; rewrite mupd_neq by lia; assumption. }
  destruct (fs_mono 1 K c m2 ltac:(lia) F2) as (ST2 & SV2). apply (b_leave4 c pr m2); [exact ST2|exact SV2|]. intros m' ST' M'.
  apply (finish_short q P OK lay ra Hra m0 D D_pos pr Dst Edi) with (s' := v); [exact ST'|unfold is_int32; lia|rewrite M'; unfold m2; rg; rewrite mupd_eq; symmetry; apply Z.mod_small; unfold W32; lia|exact HL|].
  intros l' Hl'. rewrite <- (Z.mod_small v q) at 1 by lia. apply (short_val q P OK HQ); [unfold is_int32; lia|exact Hl'].
Qed.
Lemma r_zero c m rest : FS4 0 c m -> tnolab l_ret rest = true -> tw lay ra (zero RAX :: X86T.st RDI 0 RAX :: leave4 ++ rest) (Res (valRes 0)) (m, None).
Proof.
  intros F HL. apply t_zero. intros f. apply (r_short c); [|rg; reflexivity|lia|exact HL]. destruct F as (ST & SV). assert (0 < B) by reflexivity. split; [stt ST|exact SV].
Qed.
(** *** operands *)
Definition Opd (c : Z) (m : mach) (p x : Z) : Prop :=
  (exists s l, xfields n m p s LONG l /\ eval l = x) /\ 0 <= x < q /\ ((sp0 - c <= p /\ p + N8 <= sp0) \/ xoff D m0 p K) /\ (p = pr \/ xapart n p pr).
Lemma opd_ext c c' m m' p x : c <= c' -> (forall y, p <= y < p + N8 -> mem m' y = mem m y) -> Opd c m p x -> Opd c' m' p x.
Proof.
  intros Hc E ((s & l & (F1 & F2 & F3) & Ev) & R & L & A). split; [|split; [exact R|split; [|exact A]]].
  - exists s, l. split; [|exact Ev]. split; [exact F1|]. split; [exact F2|]. eapply at_ext; [|exact F3]. intros y Hy. apply E. cbn [length] in Hy. rewrite (proj1 F2) in Hy. exact Hy.
  - destruct L as [L|L]; [left; lia|right; exact L].
Qed.
(** the call of the raw shift *)
Section CallF.
Variable f : mach -> option mach.
Variable g : Z -> Z.
Variables (c : Z) (m : mach) (p x : Z).
Hypothesis Hf : forall m2 l, limbs_ok n l -> eval l = x -> words m2 -> X86RawFacts.ptr (regs m2 RDI) n -> (forall i, (i < n)%nat -> regs m2 RSP <> regs m2 RDI + 8 * Z.of_nat i) -> at_addr m2 (regs m2 RSI) l -> same_or_apart n (regs m2 RSI) (regs m2 RDI) ->
  at_addr m2 (lay Sq) (p_q P) -> apart n (lay Sq) (regs m2 RDI) -> at_addr m2 (lay SlboMask) [p_lbo P] -> (forall i, (i < n)%nat -> lay SlboMask <> regs m2 RDI + 8 * Z.of_nat i) -> regs m2 RDX = regs m RDX ->
  exists m' l', f m2 = Some m' /\ limbs_ok n l' /\ eval l' = g x /\ stored clobS (regs m2 RDI) l' m2 m' /\ words m'.
Hypothesis Rg : 0 <= g x < q.
Hypothesis C1 : c mod 8 = 0.
Hypothesis C2 : 32 <= c.
Hypothesis C3 : c + 16 <= D.
Hypothesis HS : FS4 0 c m.
Hypothesis Esi : regs m RSI = p.
Hypothesis HO : Opd c m p x.
Lemma r_call rest : tnolab l_ret rest = true -> tw lay ra (callShift f ++ rest) (Res (valRes (g x))) (m, None).
Proof.
  intros HL. pose proof D_32 as D32. destruct (fs_mono 0 1 c m ltac:(lia) HS) as (ST & SV). destruct HO as ((s & l & (F1 & F2 & F3) & Ev) & Rx & Lp & Ap). pose proof (pr_facts q P OK lay m0 D pr Dst) as (P1 & P2 & P3). pose proof Opr as OP. pose proof (N1 q P OK) as Hn. pose proof SV as (V1 & V2 & V3 & V4). pose proof (sb_pos P) as SB. pose proof F3 as (A1 & A2 & A3 & _). cbn [length] in A3. rewrite (proj1 F2) in A3.
  unfold callShift. rewrite <- !app_assoc. apply t_setType with (p := pr); [cbn [In]; tauto|apply ST|exact P2| |apply (st_range _ _ _ _ _ _ _ _ _ ST)]. intros y fy Hy Hy2. pose proof (Z.mod_pos_bound (mem m pr) W32 ltac:(reflexivity)) as Hw.
  assert (EB : B = W32 * W32) by reflexivity. assert (HT : 0 <= 128 * 2 ^ 24 * W32 /\ 128 * 2 ^ 24 * W32 + W32 <= B) by (rewrite EB; unfold W32 in *; lia).
  set (w := mem m pr mod W32 + 128 * 2 ^ 24 * W32). match goal with |- tw _ _ _ _ (?mm, _) => set (m1 := mm) end.
  assert (ST1 : St 1 c pr bp m1) by (unfold m1; stt ST; unfold w; lia). assert (SV1 : saved4 m1) by (split; [|split; [|split]]; unfold m1; rg; rewrite mupd_neq by lia; assumption).
  assert (EW : mem m1 pr = word_of (sx32 (mem m pr)) LONG) by (unfold m1; rg; rewrite mupd_eq; unfold w, word_of; rewrite sx32_back; reflexivity).
  assert (S1 : regs m1 RSI = p) by (unfold m1; rg; exact Esi). assert (X1 : regs m1 RDX = regs m RDX) by (unfold m1; rg; reflexivity).
  assert (AT1 : at_addr m1 (p + 8) l). { eapply at_ext; [|apply (at_tail _ _ _ _ F3)]. intros z Hz. unfold m1. rg. apply mupd_neq. rewrite (proj1 F2) in Hz. unfold xapart in Ap. lia. }
  clearbody m1. cbn [app]. pose proof ST1 as (_ & _ & DI1 & _). assert (PB : pr + 8 < B) by lia. apply t_addi; [rewrite DI1; lia|]. intros f1. rg. rewrite DI1. apply t_addi; [rg; rewrite S1; lia|]. intros f2. rg. rewrite S1. match goal with |- tw _ _ _ _ (?mm, _) => set (m2 := mm) end.
  assert (ST2 : St 1 c pd bp m2) by (unfold m2; stt ST1). assert (SV2 : saved4 m2) by exact SV1. assert (S2 : regs m2 RSI = p + 8) by (unfold m2; rg; reflexivity). assert (X2 : regs m2 RDX = regs m RDX) by (unfold m2; rg; exact X1). assert (AT2 : at_addr m2 (p + 8) l) by exact AT1. assert (EW2 : mem m2 pr = word_of (sx32 (mem m pr)) LONG) by exact EW. clearbody m2. clear m1 ST1 SV1 EW S1 X1 AT1 DI1.
  pose proof ST2 as (I2 & SP2 & DI2 & _). pose proof (s_dest q P OK lay m0 D pr Dst 1 c bp m2 ST2) as DST. pose proof (spok_of P lay m0 D Rdy c 8 C1 ltac:(lia) ltac:(lia)) as S8. rewrite <- SP2 in S8. pose proof (xr_room _ _ _ _ Rdy) as RM.
  assert (K1 : (1 <= K)%nat) by lia. assert (KK : (1 <= K <= K)%nat) by lia.
  assert (SPR : 8 <= regs m2 RSP) by (destruct S8 as (_ & S82 & _); lia).
  assert (WP : words (pushed ra m2)) by exact (words_pushed ra Hra m0 D pr K Bpr 1 m2 K1 I2 SPR).
  assert (EDI : regs (pushed ra m2) RDI = pd) by (rewrite regs_pushed by discriminate; exact DI2).
  assert (ESI : regs (pushed ra m2) RSI = p + 8) by (rewrite regs_pushed by discriminate; exact S2).
  destruct (Hf (pushed ra m2) l F2 Ev WP) as (m' & l' & E & L1 & L2 & SR & W').
  - rewrite EDI, <- DI2. exact (ptr_dest P lay m0 D Rdy pr K Opr Dpr Bpr 1 m2 K1 K KK n Hn DST).
  - rewrite EDI, <- DI2. exact (ret_pushed ra m0 D pr K Opr Bpr 1 m2 K1 K KK n S8 DST).
  - rewrite ESI. apply (at_pushed ra pr K Bpr 1 m2 K1); [exact AT2|]. rewrite (proj1 F2), SP2. unfold xoff in Lp. clear - Lp C2 C3. lia.
  - rewrite ESI, EDI. unfold xapart in Ap. clear - Ap. unfold same_or_apart, apart. lia.
  - destruct (data_arr P lay m0 D Rdy pr K Opr Dpr Bpr 1 m2 Sq 8 K1 I2 S8 ltac:(lia)) as [X1 X3]. exact (at_pushed ra pr K Bpr 1 m2 K1 _ _ X1 X3).
  - rewrite EDI, <- DI2. exact (q_apart q P OK lay m0 D Rdy pr K Opr Dpr Bpr 1 m2 K1 K KK S8 DST).
  - destruct (data_arr P lay m0 D Rdy pr K Opr Dpr Bpr 1 m2 SlboMask 8 K1 I2 S8 ltac:(lia)) as [X1 X3]. exact (at_pushed ra pr K Bpr 1 m2 K1 _ _ X1 X3).
  - rewrite EDI. intros i Hi. pose proof (Dpr SlboMask) as DD. cbn [data length] in DD. clear - DD Hi. lia.
  - rewrite regs_pushed by discriminate. exact X2.
  - assert (DN : done m0 D pr m2 K l' 8 m').
    { destruct SR as (R1 & R2 & R3 & R4). rewrite EDI in *. rewrite rsp_pushed in *. pose proof (proj1 (proj1 I2) RSP) as RR. apply (done_of P lay ra Hra m0 D Rdy pr K Opr Dpr Bpr 1 m2 K1 I2 K KK); [lia|exact S8|rewrite (proj1 L1); exact DST|rewrite (proj1 L1); exact Hn|exact W'| | |rewrite DI2; exact R1].
      - intros r Hr. destruct (reg_dec r RSP) as [->|Nr]; [rewrite R4, Z.mod_small by (clear - SPR RR; lia); clear; lia|]. rewrite R3; [apply regs_pushed, Nr| |exact Nr]. intros Hi. unfold keptR, callee_saved in Hr. cbn [In] in *. intuition congruence.
      - rewrite DI2. intros z H1 H2. rewrite R2 by (clear - H1; lia). unfold pushed. cbn [setr setm mem]. apply mupd_neq. clear - H2. lia. }
    apply (s_call q P OK lay ra Hra m0 D Rdy pr Dst f 8 1 c pd bp m2 l' _ _ m' ST2 C1 ltac:(lia) ltac:(lia) ltac:(lia) (or_introl (conj eq_refl (proj1 L1))) E DN).
    intros (ST3 & AT3 & HH & MM). specialize (HH eq_refl). apply (b_leave4 c pd m' _ _ ST3 (saved4_ext c m2 m' C2 MM SV2)). intros m4 ST4 M4.
    apply (finish' P lay ra Hra m0 D D_pos pr Dst) with (L := word_of (sx32 (mem m pr)) LONG :: l'); [exact ST4|exact Edi| |exact HL|].
    + apply at_cons; [rewrite M4, HH; exact EW2|exact P1|exact P2|]. eapply at_ext; [|exact AT3]. intros z _. apply M4.
    + apply long_val; [apply sx32_range|exact L1|exact L2|exact Rg].
Qed.
End CallF.
(** *** conversions *)
Definition lres (x : Z) (L : list Z) : Prop := exists s' l', L = word_of s' LONG :: l' /\ is_int32 s' /\ limbs_ok n l' /\ eval l' = x.
Definition CL (f : mach -> option mach) (p s t : Z) (l : list Z) (x : Z) : Prop := forall m1 D' pr', 8 + sb <= D' -> xready P lay D' m1 -> xdest P lay D' m1 pr' -> xfields n m1 p s t l -> xoff D' m1 p K -> (p = pr' \/ xapart n p pr') -> regs m1 RDI = pr' -> regs m1 RSI = p ->
  exists m' L, f m1 = Some m' /\ lres x L /\ Cres D' K pr' L m1 m'.
Hypothesis N12 : neededFor n opt <> 12%nat.
Hypothesis N7 : n <> 7%nat.
Lemma cl_long p s t l v : denotes q n s t l v -> CL (f_toLongNormal lay ra n opt) p s t l v.
Proof.
  intros V m1 D' pr' H1 H2 H3 H4 H5 H6 H7 H8. pose proof (sb_pos P). exact (toLongNormal_call q P OK lay ra Hra m1 D' ltac:(lia) H2 pr' H3 p s t l v H4 V H5 H6 H7 H8 H1 HQ N12 N7).
Qed.
Lemma cl_norm p s t l v : denotes q n s t l v -> tlong t = true -> CL (f_toNormal lay ra n opt) p s t l v.
Proof.
  intros V T m1 D' pr' H1 H2 H3 H4 H5 H6 H7 H8. pose proof (sb_pos P). destruct (toNormal_call q P OK lay ra Hra m1 D' ltac:(lia) H2 pr' H3 p s t l v H4 V H5 H6 H7 H8 H1 N12 N7) as (m' & L & E & (s' & t' & l' & -> & I1 & _ & _ & L1 & L2 & _) & C).
  exists m', (word_of s' t' :: l'). split; [exact E|]. split; [|exact C]. destruct (L2 T) as [-> Ev]. exists s', l'. auto.
Qed.
Section Conv4.
Variables (f : mach -> option mach) (p s t : Z) (l : list Z) (x : Z).
Hypothesis Hf : CL f p s t l x.
Hypothesis Rx : 0 <= x < q.
Variables (c : Z) (m : mach) (rest : list tinstr) (Q : X86RawFacts.st -> Prop).
Hypothesis C1 : c mod 8 = 0.
Hypothesis C2 : 32 <= c.
Hypothesis C3 : c + N8 + 32 + sb <= D.
Hypothesis HS : FS4 0 c m.
Hypothesis F : xfields n m p s t l.
Hypothesis O : p + N8 <= sp0 - D \/ sp0 - c <= p.
Notation tmp := (sp0 - (c + N8)).
Definition after4 (r other : reg) (m' : mach) : Prop := FS4 0 (c + N8) m' /\ regs m' r = tmp /\ regs m' other = regs m other /\ Opd (c + N8) m' tmp x.
Lemma after4_of r other L m' : lres x L -> ConvPost P m0 D pr 0 c pr bp m r other L m' -> after4 r other m'.
Proof.
  intros (s' & l' & -> & I1 & L1 & L2) (ST' & E1 & E2 & AT & M1 & M2). pose proof (sb_pos P). pose proof (xr_room _ _ _ _ Rdy). pose proof Opr as OP.
  split; [split; [exact ST'|eapply saved4_ext; [exact C2|exact M1|apply HS]]|]. split; [exact E1|]. split; [exact E2|]. split; [exists s', l'; split; [split; [exact I1|split; [exact L1|exact AT]]|exact L2]|]. split; [exact Rx|]. split; [left; lia|right; unfold xapart; lia].
Qed.
Lemma k4_a : regs m RSI = p -> (forall m', after4 RSI RDX m' -> tw lay ra rest Q (m', None)) -> tw lay ra (conv_a n f ++ rest) Q (m, None).
Proof.
  intros E H. pose proof (sb_pos P). destruct HS as (ST & SV). apply (b_conv_aG P lay ra Hra m0 D Rdy pr K Opr Dpr Bpr f (lres x) (8 + sb) p s t l ltac:(lia) Hf 0 c pr bp m rest Q O); [lia|exact C1|lia|lia|exact ST|exact F|exact E|].
  intros m' L HL HP. apply H. exact (after4_of _ _ _ _ HL HP).
Qed.
Lemma k4_b : regs m RDX = p -> (forall m', after4 RDX RSI m' -> tw lay ra rest Q (m', None)) -> tw lay ra (conv_b n f ++ rest) Q (m, None).
Proof.
  intros E H. pose proof (sb_pos P). destruct HS as (ST & SV). apply (b_conv_bG P lay ra Hra m0 D Rdy pr K Opr Dpr Bpr f (lres x) (8 + sb) p s t l ltac:(lia) Hf 0 c pr bp m rest Q O); [lia|exact C1|lia|lia|exact ST|exact F|exact E|].
  intros m' L HL HP. apply H. exact (after4_of _ _ _ _ HL HP).
Qed.
End Conv4.
(** the operands of the caller *)
Lemma fields0 c m p s t l : FS4 0 c m -> xfields n m0 p s t l -> xoff D m0 p K -> (p = pr \/ xapart n p pr) -> xfields n m p s t l.
Proof.
  intros ((I1 & _) & _) (F1 & F2 & F3) O S. split; [exact F1|]. split; [exact F2|]. apply (user_at m0 D pr K Opr Bpr 0 m p); [exact I1|exact F3|cbn [length]; rewrite (proj1 F2); exact O|]. cbn [length]. rewrite (proj1 F2). unfold xapart in S. lia.
Qed.
Section DoShift.
Variables pa sa ta : Z.
Variable la : list Z.
Variable va : Z.
Hypothesis Fa : xfields n m0 pa sa ta la.
Hypothesis Va : denotes q n sa ta la va.
Hypothesis Oa : xoff D m0 pa K.
Hypothesis Sa : pa = pr \/ xapart n pa pr.
Notation Ra := (v_range q P sa ta la va Va).
Variable j : Z.
Hypothesis Hj : 0 <= j < bl.
(** at the label: the count is in rdx *)
Definition At (c : Z) (m : mach) : Prop := FS4 0 c m /\ regs m RSI = pa /\ regs m RDX = j.
Variable c : Z.
Hypothesis C1 : c mod 8 = 0.
Hypothesis C2 : 32 <= c.
Hypothesis C3 : c + 2 * N8 + 32 + sb <= D.
Lemma at_setr m r v : At c m -> ~ In r [RSI; RDX; RSP; RDI; RBP; RBX; R12; R13; R14; R15] -> 0 <= v < B -> At c (setr m r v).
Proof.
  intros ((ST & SV) & E1 & E2) Hr Hv. destruct ST as (I1 & S1 & S2 & S3). assert (NE : forall r', In r' [RSI; RDX; RSP; RDI; RBP; RBX; R12; R13; R14; R15] -> regs (setr m r v) r' = regs m r') by (intros r' H; cbn [setr regs]; apply rupd_neq; intros ->; contradiction).
  split; [split; [|exact SV]|rewrite !NE by (cbn [In]; tauto); auto]. split; [|rewrite !NE by (cbn [In]; tauto); auto]. apply inv_setr; [exact I1|exact Hv|]. intros H. apply Hr. cbn [In] in *. tauto.
Qed.
Lemma at_setf m f : At c m -> At c (setf m f). Proof. intros H. exact H. Qed.
Lemma opd_a m : At c m -> tlong ta = true -> tmont ta = false -> Opd c m pa va.
Proof.
  intros (F & _) T M. pose proof (fields0 c m pa sa ta la F Fa Oa Sa) as F'. split; [|split; [exact Ra|split; [right; exact Oa|exact Sa]]]. exists sa, la. split; [|eapply v_long; eassumption].
  assert (E : ta = LONG); [|rewrite <- E; exact F']. destruct (e_type q P sa ta la va Va) as [E|[E|[E|E]]]; rewrite E in *; try discriminate; reflexivity.
Qed.
Lemma al_c : (c + N8) mod 8 = 0. Proof. rewrite (Z.mul_comm 8), Z.mod_add by lia. exact C1. Qed.
Lemma ld_a m rest Q : At c m -> (forall m', At c m' -> regs m' RCX = word_of sa ta -> tw lay ra rest Q (m', None)) -> tw lay ra (ld RCX RSI 0 :: rest) Q (m, None).
Proof.
  intros A H. pose proof A as (F & E1 & _). pose proof (e_ptr q P OK m0 pa sa ta la Fa) as (A1 & A2 & A3). pose proof (word_range sa ta (e_type q P sa ta la va Va)) as WR.
  apply (t_ld lay ra _ _ _ _ pa); [rewrite E1, Z.add_0_r; apply Z.mod_small; lia|exact A2|]. rewrite (e_headk P lay m0 D pr Dst pa sa ta la Fa Oa Sa m) by apply F. apply H; [|rg; reflexivity]. apply at_setr; [exact A|cbn [In]; intuition discriminate|exact WR].
Qed.
Notation fl := (f_rawShl lay ra n bl).
Notation fr := (f_rawShr lay ra n bl).
Definition gl (x : Z) : Z := (x * 2 ^ j mod 2 ^ bl) mod q.
Definition gr (x : Z) : Z := x / 2 ^ j.
Lemma p2j : 0 < 2 ^ j. Proof. apply Z.pow_pos_nonneg; lia. Qed.
Lemma gr_range : 0 <= gr va < q.
Proof. pose proof Ra. pose proof p2j. unfold gr. split; [apply Z.div_pos; lia|]. apply Z.le_lt_trans with va; [|lia]. apply Z.div_le_upper_bound; [lia|]. nia. Qed.
Lemma gl_range : 0 <= gl va < q. Proof. pose proof Ra. apply Z.mod_pos_bound. lia. Qed.
Lemma n_B m2 : X86RawFacts.ptr (regs m2 RDI) n -> Z.of_nat n < B /\ 0 <= bl < B.
Proof. intros (H1 & H2 & H3). pose proof B_pos. assert (2 ^ 31 < B) by reflexivity. lia. Qed.
Section End4.
Variables (c' : Z) (m : mach) (rest : list tinstr).
Hypothesis E1 : c' mod 8 = 0.
Hypothesis E2 : 32 <= c'.
Hypothesis E3 : c' + 16 <= D.
Hypothesis HF : FS4 0 c' m.
Hypothesis Ex : regs m RDX = j.
Hypothesis HO : Opd c' m (regs m RSI) va.
Hypothesis HL : tnolab l_ret rest = true.
Lemma shl_call : tw lay ra (callShift fl ++ rest) (Res (valRes (gl va))) (m, None).
Proof.
  apply (r_call fl gl c' m (regs m RSI) va); [|exact gl_range|exact E1|exact E2|exact E3|exact HF|reflexivity|exact HO|exact HL].
  intros m2 l Hl Ev W Pd Rt Aa SA Aq Dq Al Dl EX. destruct (F_rawShl q P OK lay ra m2 HB W Pd Rt l Hl Aa SA Aq Dq Al Dl) as (m' & l' & A1 & A2 & A3 & A4); [intros _; rewrite Ev; apply Ra|].
  exists m', l'. split; [exact A1|]. split; [exact A2|]. split; [|split; [exact A4|]].
  - rewrite A3, EX, Ex, Ev. destruct (Z.ltb_spec j bl); [reflexivity|lia].
  - destruct (n_B m2 Pd). eapply tcall_words; [exact W|apply rawShl_tok; eassumption|exact A1].
Qed.
Lemma shr_call : tw lay ra (callShift fr ++ rest) (Res (valRes (gr va))) (m, None).
Proof.
  apply (r_call fr gr c' m (regs m RSI) va); [|exact gr_range|exact E1|exact E2|exact E3|exact HF|reflexivity|exact HO|exact HL].
  intros m2 l Hl Ev W Pd Rt Aa SA Aq Dq Al Dl EX. destruct (F_rawShr q P OK lay ra m2 HB W Pd Rt l Hl Aa SA) as (m' & l' & A1 & A2 & A3 & A4).
  exists m', l'. split; [exact A1|]. split; [exact A2|]. split; [|split; [exact A4|]].
  - rewrite A3, EX, Ex, Ev. destruct (Z.ltb_spec j bl); [reflexivity|lia].
  - destruct (n_B m2 Pd). eapply tcall_words; [exact W|apply rawShr_tok; eassumption|exact A1].
Qed.
End End4.
Notation tln := (f_toLongNormal lay ra n opt).
Notation ton := (f_toNormal lay ra n opt).
Lemma Oc : pa + N8 <= sp0 - D \/ sp0 - c <= pa. Proof. unfold xoff in Oa. lia. Qed.
Lemma sx_a : sx32 (word_of sa ta) = sa. Proof. apply sx32_word, Fa. Qed.
(** after a conversion of a in the frame of size c *)
Lemma conv_a4 f m rest Q : CL f pa sa ta la va -> At c m -> (forall m', FS4 0 (c + N8) m' -> regs m' RDX = j -> Opd (c + N8) m' (regs m' RSI) va -> tw lay ra rest Q (m', None)) -> tw lay ra (conv_a n f ++ rest) Q (m, None).
Proof.
  intros Hf (F & X1 & X2) H. apply (k4_a f pa sa ta la va Hf Ra c m rest Q C1 C2 ltac:(lia) F (fields0 c m pa sa ta la F Fa Oa Sa) Oc X1). intros m' (G1 & G2 & G3 & G4). apply H; [exact G1|rewrite G3; exact X2|rewrite G2; exact G4].
Qed.
Section Code.
Variable rest : list tinstr.
Hypothesis HL : tnolab l_ret rest = true.
Hypothesis HZ : after 99%nat rest = Some (zero RAX :: X86T.st RDI 0 RAX :: leave4 ++ []).
Definition shl_end : list tinstr := [lab 93] ++ callShift fl ++ rest.
Definition shl_mont : list tinstr := [Bt RCX 62; jnc 93] ++ conv_a n ton ++ shl_end.
Definition shl_conv : list tinstr := conv_a n tln ++ [jmp 93; lab 92] ++ shl_mont.
Definition shl_code : list tinstr := [ld RCX RSI 0; Bt RCX 63; jc 92; Movsx RAX RCX; CmpJ true RAX (OImm 0) Ce 99%nat; CmpJ true RAX (OImm 0) Cl 91%nat; CmpJ true RDX (OImm 31) Cae 91%nat;
   Sh MovClDl; Sh (ShlCl RAX); mov RCX RAX; Sh (ShrI RCX 31); jnz 91; X86T.st RDI 0 RAX] ++ leave4 ++ [lab 91] ++ shl_conv.
Definition shr_end : list tinstr := [lab 97] ++ callShift fr ++ rest.
Definition shr_mont : list tinstr := [Bt RCX 62; jnc 97] ++ conv_a n ton ++ shr_end.
Definition shr_conv : list tinstr := conv_a n tln ++ [lab 96] ++ shr_mont.
Definition shr_code : list tinstr := [ld RCX RSI 0; Bt RCX 63; jc 96; Movsx RAX RCX; CmpJ true RAX (OImm 0) Ce 99%nat; CmpJ true RAX (OImm 0) Cl 95%nat; CmpJ true RDX (OImm 31) Cae 99%nat;
   Sh MovClDl; Sh (ShrCl RAX); X86T.st RDI 0 RAX] ++ leave4 ++ [lab 95] ++ shr_conv.
Lemma conv_nolab l f : tnolab l (conv_a n f) = true. Proof. reflexivity. Qed.
Lemma call_nolab l f : tnolab l (callShift f) = true. Proof. reflexivity. Qed.
Lemma cN c' : c' = c \/ c' = c + N8 \/ c' = c + 2 * N8 -> c' mod 8 = 0 /\ 32 <= c' /\ c' + 16 <= D.
Proof. pose proof (sb_pos P). pose proof al_c as A. intros [->|[->| ->]]; split; try lia; try exact C1; try exact A. replace (c + 2 * N8) with (c + (2 * Z.of_nat K) * 8) by ring. rewrite Z.mod_add by lia. exact C1. Qed.
Lemma S_zero m : FS4 0 c m -> va = 0 -> tw lay ra rest (Res (valRes 0)) (m, Some 99%nat).
Proof. intros F _. eapply t_after; [exact HZ|]. apply (r_zero c); [exact F|reflexivity]. Qed.
Lemma L_conv m : At c m -> tw lay ra shl_conv (Res (valRes (gl va))) (m, None).
Proof.
  intros A. unfold shl_conv. apply conv_a4; [apply cl_long, Va|exact A|]. intros m' G1 G2 G3. destruct (cN (c + N8)) as (X1 & X2 & X3); [auto|]. cbn [app]. apply t_jmp. apply (t_after lay ra 93%nat _ (callShift fl ++ rest)).
  - apply (after_app 93%nat [lab 92]); [reflexivity|]. unfold shl_mont. apply (after_app 93%nat [Bt RCX 62; jnc 93]); [reflexivity|]. apply after_app; [reflexivity|]. reflexivity.
  - apply (shl_call (c + N8)); assumption.
Qed.
Lemma L_mont m : At c m -> tlong ta = true -> regs m RCX = word_of sa ta -> tw lay ra shl_mont (Res (valRes (gl va))) (m, None).
Proof.
  intros A T EC. pose proof (e_type q P sa ta la va Va) as TA. unfold shl_mont. cbn [app]. apply t_btnc; rewrite EC, word_62 by exact TA; intros f M.
  - apply tw_app. apply t_skip; [reflexivity|]. apply t_hit. destruct (cN c) as (X1 & X2 & X3); [auto|]. apply (shl_call c); try assumption; try apply A. cbn [setf regs]. rewrite (proj1 (proj2 A)). apply opd_a; [exact A|exact T|exact M].
  - apply conv_a4; [apply cl_norm; [exact Va|exact T]|apply at_setf, A|]. intros m' G1 G2 G3. unfold shl_end. apply t_lab. destruct (cN (c + N8)) as (X1 & X2 & X3); [auto|]. apply (shl_call (c + N8)); assumption.
Qed.
Lemma R_mont0 c' m rest' : rest' = rest -> c' mod 8 = 0 -> 32 <= c' -> c' + N8 + 32 + sb <= D -> (c' = c \/ c' = c + N8) -> FS4 0 c' m -> regs m RDX = j -> Opd c' m (regs m RSI) va -> tw lay ra shr_mont (Res (valRes (gr va))) (m, None).
Proof.
  intros _ X1 X2 X3 EC F Ej HO. pose proof (sb_pos P). unfold shr_mont. cbn [app]. apply t_btnc; intros f _.
  - apply tw_app. apply t_skip; [reflexivity|]. apply t_hit. apply (shr_call c'); try assumption. lia.
  - pose proof HO as ((s & l & Fx & Ev) & Rx & Lp & Ap).
    assert (V : denotes q n s LONG l va) by (split; [exact Rx|]; split; [apply Fx|]; right; right; left; auto).
    apply (k4_a ton (regs m RSI) s LONG l va (cl_norm _ _ _ _ _ V eq_refl) Rx c' (setf m f) _ _ X1 X2 X3 F Fx); [unfold xoff in Lp; lia|reflexivity|].
    intros m' (G1 & G2 & G3 & G4). unfold shr_end. apply t_lab. destruct (cN (c' + N8)) as (Y1 & Y2 & Y3); [lia|]. apply (shr_call (c' + N8)); try assumption; [rewrite G3; exact Ej|rewrite G2; exact G4].
Qed.
Lemma R_conv m : At c m -> tw lay ra shr_conv (Res (valRes (gr va))) (m, None).
Proof.
  intros A. unfold shr_conv. apply conv_a4; [apply cl_long, Va|exact A|]. intros m' G1 G2 G3. destruct (cN (c + N8)) as (X1 & X2 & X3); [auto|]. cbn [app]. apply t_lab. apply (R_mont0 (c + N8) m' rest); try assumption; try lia. reflexivity.
Qed.
Lemma R_mont m : At c m -> tlong ta = true -> regs m RCX = word_of sa ta -> tw lay ra shr_mont (Res (valRes (gr va))) (m, None).
Proof.
  intros A T EC. pose proof (e_type q P sa ta la va Va) as TA. unfold shr_mont. cbn [app]. apply t_btnc; rewrite EC, word_62 by exact TA; intros f M.
  - apply tw_app. apply t_skip; [reflexivity|]. apply t_hit. destruct (cN c) as (X1 & X2 & X3); [auto|]. apply (shr_call c); try assumption; try apply A. cbn [setf regs]. rewrite (proj1 (proj2 A)). apply opd_a; [exact A|exact T|exact M].
  - apply conv_a4; [apply cl_norm; [exact Va|exact T]|apply at_setf, A|]. intros m' G1 G2 G3. unfold shr_end. apply t_lab. destruct (cN (c + N8)) as (X1 & X2 & X3); [auto|]. apply (shr_call (c + N8)); assumption.
Qed.
Lemma sa_int : - 2 ^ 31 <= sa < 2 ^ 31. Proof. exact (proj1 Fa). Qed.
Lemma ce_a : scond_holds true (sa mod B) 0 Ce = (sa =? 0).
Proof. pose proof sa_int. cbn [scond_holds]. rewrite short_B by apply Fa. destruct (Z.ltb_spec sa 0); [|reflexivity]. assert (2 ^ 31 < B) by reflexivity. destruct (Z.eqb_spec (sa + B) 0), (Z.eqb_spec sa 0); lia. Qed.
Lemma cl_a : scond_holds true (sa mod B) 0 Cl = (sa <? 0).
Proof. pose proof sa_int as H. cbn [scond_holds]. rewrite (sx64_id sa) by lia. reflexivity. Qed.
Lemma cae_j : scond_holds true j 31 Cae = (31 <=? j). Proof. reflexivity. Qed.
Lemma sa_B : 0 <= sa mod B < B. Proof. apply Z.mod_pos_bound. reflexivity. Qed.
Lemma sh_bound : 0 <= sa -> 0 <= j < 31 -> 0 <= sa * 2 ^ j < B.
Proof. intros H1 H2. pose proof sa_int. pose proof p2j. assert (2 ^ j < 2 ^ 31) by (apply Z.pow_lt_mono_r; lia). assert (2 ^ 31 * 2 ^ 31 < B) by reflexivity. nia. Qed.
Lemma v_sa : tlong ta = false -> 0 <= sa -> va = sa.
Proof. intros T H. rewrite (v_short q P m0 pa sa ta la va Fa Va T). apply Z.mod_small. pose proof sa_int. lia. Qed.
(** the short operand: the common part *)
Lemma S_pre m l c2 A1 Q : At c m -> tlong ta = false -> regs m RCX = word_of sa ta -> va = sa mod q ->
  (sa = 0 -> forall m', At c m' -> tw lay ra c2 Q (m', Some 99%nat)) -> (sa < 0 -> forall m', At c m' -> tw lay ra c2 Q (m', Some l)) -> (0 < sa -> 31 <= j -> forall m', At c m' -> tw lay ra c2 Q (m', Some A1)) ->
  (0 < sa -> j < 31 -> forall m', At c m' -> regs m' RAX = sa -> regs m' RCX mod 256 = j -> tw lay ra c2 Q (m', None)) ->
  tw lay ra ([Movsx RAX RCX; CmpJ true RAX (OImm 0) Ce 99%nat; CmpJ true RAX (OImm 0) Cl l; CmpJ true RDX (OImm 31) Cae A1; Sh MovClDl] ++ c2) Q (m, None).
Proof.
  intros A T EC EV H1 H2 H3 H4. pose proof sa_B as SB. cbn [app]. apply t_movsx. rewrite EC, sx_a. pose proof (at_setr m RAX (sa mod B) A ltac:(cbn [In]; intuition discriminate) SB) as A2.
  eapply t_cmpj; [reflexivity|reflexivity| |]; intros f; cbn [setr regs]; rewrite rupd_eq, ce_a; intros Hz.
  { apply Z.eqb_eq in Hz. do 3 (eapply tw_cons; [reflexivity|]). apply H1; [exact Hz|exact A2]. }
  apply Z.eqb_neq in Hz. eapply t_cmpj; [reflexivity|reflexivity| |]; intros f2; cbn [setr setf regs]; rewrite rupd_eq, cl_a; intros Hn.
  { apply Z.ltb_lt in Hn. do 2 (eapply tw_cons; [reflexivity|]). apply H2; [exact Hn|exact A2]. }
  apply Z.ltb_ge in Hn. eapply t_cmpj; [reflexivity|reflexivity| |]; intros f3; cbn [setr setf regs]; rewrite rupd_neq, (proj2 (proj2 A)), cae_j by discriminate; intros Hk.
  { apply Z.leb_le in Hk. eapply tw_cons; [reflexivity|]. apply H3; [lia|exact Hk|exact A2]. }
  apply Z.leb_gt in Hk. apply t_movcl. cbn [setf setr regs]. rewrite !(rupd_neq _ RAX) by discriminate. rewrite EC, (proj2 (proj2 A)), (Z.mod_small j 256) by lia. set (w := word_of sa ta). pose proof (word_range sa ta (e_type q P sa ta la va Va)) as WR. fold w in WR.
  pose proof (Z.mod_pos_bound w 256 ltac:(lia)) as MB. pose proof (byte0 w j WR ltac:(lia)) as BR.
  apply H4; [lia|exact Hk| | |].
  - apply at_setr; [exact A2|cbn [In]; intuition discriminate|exact BR].
  - cbn [setf setr regs]. rewrite rupd_neq, rupd_eq by discriminate. apply Z.mod_small. pose proof sa_int. assert (2 ^ 31 < B) by reflexivity. lia.
  - cbn [setf setr regs]. rewrite rupd_eq. pose proof (Z.div_mod w 256 ltac:(lia)) as DM. replace (w - w mod 256 + j) with (j + (w / 256) * 256) by lia. rewrite Z.mod_add by lia. apply Z.mod_small. lia.
Qed.
Lemma D_shl m : At c m -> tw lay ra shl_code (Res (valRes (gl va))) (m, None).
Proof.
  intros A0. pose proof (e_type q P sa ta la va Va) as TA. unfold shl_code. cbn [app]. apply ld_a; [exact A0|]. intros m1 A EC.
  assert (J91 : forall m', At c m' -> forall l0, tnolab 91%nat l0 = true -> tw lay ra (l0 ++ leave4 ++ lab 91 :: shl_conv) (Res (valRes (gl va))) (m', Some 91%nat)).
  { intros m' A' l0 Hl. apply t_after with (c2 := shl_conv); [|apply L_conv, A']. apply after_app; [exact Hl|]. apply (after_app 91%nat leave4); [reflexivity|]. reflexivity. }
  apply t_btc; rewrite EC, word_63 by exact TA; intros f T.
  - apply t_after with (c2 := shl_mont); [|apply L_mont; [apply at_setf, A|exact T|exact EC]]. 
    apply (after_app 92%nat [Movsx RAX RCX; CmpJ true RAX (OImm 0) Ce 99%nat; CmpJ true RAX (OImm 0) Cl 91%nat; CmpJ true RDX (OImm 31) Cae 91%nat; Sh MovClDl; Sh (ShlCl RAX); mov RCX RAX; Sh (ShrI RCX 31); jnz 91; X86T.st RDI 0 RAX]); [reflexivity|].
    apply (after_app 92%nat (leave4 ++ [lab 91])); [reflexivity|]. unfold shl_conv. apply after_app; [reflexivity|]. reflexivity.
  - pose proof (v_short q P m0 pa sa ta la va Fa Va T) as EV. apply (S_pre (setf m1 f) 91%nat (Sh (ShlCl RAX) :: mov RCX RAX :: Sh (ShrI RCX 31) :: jnz 91 :: X86T.st RDI 0 RAX :: leave4 ++ lab 91 :: shl_conv) 91%nat); [apply at_setf, A|exact T|exact EC|exact EV| | | |].
    + intros Hz m' A'. assert (V0 : va = 0) by (rewrite EV, Hz; apply Z.mod_0_l; lia). assert (G0 : gl va = 0) by (unfold gl; rewrite V0, Z.mul_0_l, (Z.mod_0_l (2 ^ bl)) by (pose proof (two_bits q P OK); lia); apply Z.mod_0_l; lia). rewrite G0.
      apply t_after with (c2 := zero RAX :: X86T.st RDI 0 RAX :: leave4 ++ []); [|apply (r_zero c); [apply A'|reflexivity]]. apply (after_app 99%nat [Sh (ShlCl RAX); mov RCX RAX; Sh (ShrI RCX 31); jnz 91; X86T.st RDI 0 RAX]); [reflexivity|]. apply (after_app 99%nat (leave4 ++ [lab 91])); [reflexivity|]. unfold shl_conv, shl_mont, shl_end. do 4 (apply after_app; [reflexivity|]). apply (after_app 99%nat [lab 93]); [reflexivity|]. apply after_app; [reflexivity|exact HZ].
    + intros _ m' A'. apply (J91 m' A' [Sh (ShlCl RAX); mov RCX RAX; Sh (ShrI RCX 31); jnz 91; X86T.st RDI 0 RAX]). reflexivity.
    + intros _ _ m' A'. apply (J91 m' A' [Sh (ShlCl RAX); mov RCX RAX; Sh (ShrI RCX 31); jnz 91; X86T.st RDI 0 RAX]). reflexivity.
    + intros Hp Hk m' A' EA Ecl. pose proof (sh_bound ltac:(lia) ltac:(lia)) as SHB. assert (SB2 : 0 <= sa < B) by (pose proof sa_int; assert (2 ^ 31 < B) by reflexivity; lia).
      apply (t_sh0 lay ra true m' RAX j); [exact Ecl|lia|rewrite EA; exact SB2|]. intros m2 M2 R2 V2. unfold sval in V2. rewrite EA, Z.mod_small in V2 by exact SHB.
      assert (A2 : At c m2). { destruct A' as ((ST & SV) & X1 & X2). destruct ST as ((W & MI & RI) & S1 & S2 & S3). split; [split|].
        - split; [split|].
          + split; [|intros x; rewrite M2; apply W]. intros r. destruct (reg_dec r RAX) as [->|Nr]; [rewrite V2; exact SHB|rewrite R2 by exact Nr; apply W].
          + split; [intros x H1 H2; rewrite M2; apply MI; assumption|]. intros r Hr. rewrite R2; [apply RI, Hr|]. intros ->. cbn [In] in Hr. intuition discriminate.
          + rewrite !R2 by discriminate. auto.
        - destruct SV as (V1 & V3 & V4 & V5). split; [|split; [|split]]; rewrite M2; assumption.
        - rewrite !R2 by discriminate. auto. }
      apply t_mov. apply t_shrI. intros f2 Hz2. cbn [setr regs] in Hz2. rewrite rupd_eq, V2 in Hz2. cbn [setr regs]. rewrite rupd_eq, V2.
      assert (DR : 0 <= sa * 2 ^ j / 2 ^ 31 < B) by (apply div_range; [exact SHB|lia]).
      assert (A3 : At c (setf (setr (setr m2 RCX (sa * 2 ^ j)) RCX (sa * 2 ^ j / 2 ^ 31)) f2)) by (apply at_setf, at_setr; [apply at_setr; [exact A2|cbn [In]; intuition discriminate|exact SHB]|cbn [In]; intuition discriminate|exact DR]).
      apply t_jnz; cbn [setf X86.fl]; rewrite Hz2; intros Hz3.
      * apply (J91 _ A3 [X86T.st RDI 0 RAX]). reflexivity.
      * apply Z.eqb_eq in Hz3. assert (LT : 0 <= sa * 2 ^ j < 2 ^ 31) by (apply Z.div_small_iff in Hz3; [|lia]; lia).
        assert (EG : gl va = sa * 2 ^ j). { unfold gl. rewrite (v_sa T) by lia. pose proof (two_bits q P OK) as [T1 T2]. pose proof (zk_bits q P OK) as ZB. rewrite (Z.mod_small _ (2 ^ bl)) by lia. apply Z.mod_small. lia. }
        rewrite EG. apply (r_short c); [apply A3|cbn [setf setr regs]; rewrite !rupd_neq by discriminate; exact V2|exact LT|]. unfold shl_conv, shl_mont, shl_end. cbn [tnolab lab]. rewrite !tnolab_app, HL. reflexivity.
Qed.
Lemma D_shr m : At c m -> tw lay ra shr_code (Res (valRes (gr va))) (m, None).
Proof.
  intros A0. pose proof (e_type q P sa ta la va Va) as TA. unfold shr_code. cbn [app]. apply ld_a; [exact A0|]. intros m1 A EC.
  assert (J99 : forall m', At c m' -> tw lay ra (Sh (ShrCl RAX) :: X86T.st RDI 0 RAX :: leave4 ++ lab 95 :: shr_conv) (Res (valRes 0)) (m', Some 99%nat)).
  { intros m' A'. apply t_after with (c2 := zero RAX :: X86T.st RDI 0 RAX :: leave4 ++ []); [|apply (r_zero c); [apply A'|reflexivity]]. apply (after_app 99%nat [Sh (ShrCl RAX); X86T.st RDI 0 RAX]); [reflexivity|]. apply (after_app 99%nat (leave4 ++ [lab 95])); [reflexivity|]. unfold shr_conv, shr_mont, shr_end. do 4 (apply after_app; [reflexivity|]). apply (after_app 99%nat [lab 97]); [reflexivity|]. apply after_app; [reflexivity|exact HZ]. }
  apply t_btc; rewrite EC, word_63 by exact TA; intros f T.
  - apply t_after with (c2 := shr_mont); [|apply R_mont; [apply at_setf, A|exact T|exact EC]].
    apply (after_app 96%nat [Movsx RAX RCX; CmpJ true RAX (OImm 0) Ce 99%nat; CmpJ true RAX (OImm 0) Cl 95%nat; CmpJ true RDX (OImm 31) Cae 99%nat; Sh MovClDl; Sh (ShrCl RAX); X86T.st RDI 0 RAX]); [reflexivity|].
    apply (after_app 96%nat (leave4 ++ [lab 95])); [reflexivity|]. unfold shr_conv. apply after_app; [reflexivity|]. reflexivity.
  - pose proof (v_short q P m0 pa sa ta la va Fa Va T) as EV. apply (S_pre (setf m1 f) 95%nat (Sh (ShrCl RAX) :: X86T.st RDI 0 RAX :: leave4 ++ lab 95 :: shr_conv) 99%nat); [apply at_setf, A|exact T|exact EC|exact EV| | | |].
    + intros Hz m' A'. assert (V0 : va = 0) by (rewrite EV, Hz; apply Z.mod_0_l; lia). assert (G0 : gr va = 0) by (unfold gr; rewrite V0; apply Z.div_0_l; pose proof p2j; lia). rewrite G0. apply J99, A'.
    + intros _ m' A'. apply t_after with (c2 := shr_conv); [|apply R_conv, A']. apply (after_app 95%nat [Sh (ShrCl RAX); X86T.st RDI 0 RAX]); [reflexivity|]. apply (after_app 95%nat leave4); [reflexivity|]. reflexivity.
    + intros Hp Hk m' A'. assert (G0 : gr va = 0). { unfold gr. rewrite (v_sa T) by lia. apply Z.div_small. pose proof sa_int. assert (2 ^ 31 <= 2 ^ j) by (apply Z.pow_le_mono_r; lia). lia. } rewrite G0. apply J99, A'.
    + intros Hp Hk m' A' EA Ecl. assert (SB2 : 0 <= sa < B) by (pose proof sa_int; assert (2 ^ 31 < B) by reflexivity; lia). assert (DR : 0 <= sa / 2 ^ j < 2 ^ 31). { pose proof p2j. split; [apply Z.div_pos; lia|]. pose proof sa_int. apply Z.le_lt_trans with sa; [|lia]. apply Z.div_le_upper_bound; nia. }
      apply (t_sh0 lay ra false m' RAX j); [exact Ecl|lia|rewrite EA; exact SB2|]. intros m2 M2 R2 V2. unfold sval in V2. rewrite EA in V2.
      assert (A2 : At c m2). { assert (31 < 64) by lia. destruct A' as ((ST & SV) & X1 & X2). destruct ST as ((W & MI & RI) & S1 & S2 & S3). split; [split|].
        - split; [split|].
          + split; [|intros x; rewrite M2; apply W]. intros r. destruct (reg_dec r RAX) as [->|Nr]; [rewrite V2; assert (2 ^ 31 < B) by reflexivity; lia|rewrite R2 by exact Nr; apply W].
          + split; [intros x H1 H2; rewrite M2; apply MI; assumption|]. intros r Hr. rewrite R2; [apply RI, Hr|]. intros ->. cbn [In] in Hr. intuition discriminate.
          + rewrite !R2 by discriminate. auto.
        - destruct SV as (V1 & V3 & V4 & V5). split; [|split; [|split]]; rewrite M2; assumption.
        - rewrite !R2 by discriminate. auto. }
      assert (EG : gr va = sa / 2 ^ j) by (unfold gr; rewrite (v_sa T) by lia; reflexivity). rewrite EG.
      apply (r_short c); [apply A2|exact V2|exact DR|]. unfold shr_conv, shr_mont, shr_end. cbn [tnolab lab]. rewrite !tnolab_app, HL. reflexivity.
Qed.
End Code.
End DoShift.
Lemma t_over l a b Q m : tnolab l a = true -> tw lay ra b Q (m, Some l) -> tw lay ra (a ++ b) Q (m, Some l).
Proof. intros H1 H2. apply tw_app, t_skip; assumption. Qed.
Lemma t_miss l l' code Q m : Nat.eqb l l' = false -> tw lay ra code Q (m, Some l) -> tw lay ra (lab l' :: code) Q (m, Some l).
Proof. intros H1 H2. eapply tw_cons; [|exact H2]. cbn [lab tstep step]. rewrite H1. reflexivity. Qed.
(** *** reading the count *)
Section Parse.
Variables pa pb sb' tb : Z.
Variable lb : list Z.
Variable vb : Z.
Hypothesis Fb : xfields n m0 pb sb' tb lb.
Hypothesis Vb : denotes q n sb' tb lb vb.
Hypothesis Ob : xoff D m0 pb K.
Hypothesis Sb : pb = pr \/ xapart n pb pr.
Notation Rb := (v_range q P sb' tb lb vb Vb).
Variables (lp ln : nat) (rest : list tinstr) (Q : X86RawFacts.st -> Prop).
Definition At' (c : Z) (m : mach) (j : Z) : Prop := At pa j c m.
Definition okc (c : Z) : Prop := c = 32 \/ c = 32 + N8.
Hypothesis Llp : forall x, In x [80%nat; 81%nat; 82%nat; 83%nat] -> Nat.eqb lp x = false.
Hypothesis Lln : forall x, In x [80%nat; 81%nat; 82%nat; 83%nat] -> Nat.eqb ln x = false.
Hypothesis Hp : vb < bl -> forall c m, okc c -> At' c m vb -> tw lay ra rest Q (m, Some lp).
Hypothesis Hn : bl <= vb -> q - vb < bl -> forall c m, okc c -> At' c m (q - vb) -> tw lay ra rest Q (m, Some ln).
Hypothesis Hz : bl <= vb -> bl <= q - vb -> forall c m, okc c -> FS4 0 c m -> tw lay ra rest Q (m, Some 99%nat).
Notation ton := (f_toNormal lay ra n opt).
Definition p_neg : list tinstr := [lab 83; Neg32 RCX; CmpJ false RCX (OImm bl) Cae 99%nat; Movsx RDX RCX; jmp ln] ++ rest.
Definition p_short : list tinstr := [CmpJ false RCX (OImm 0) Cl 83%nat; CmpJ false RCX (OImm bl) Cae 99%nat; Movsx RDX RCX; jmp lp] ++ p_neg.
Definition p_sub : list tinstr := [X (I Imov [OReg RCX; q8 0]); X (I Isub [OReg RCX; at8 RDX 1]); cmpi RCX bl; jnc 99; X (I Imov [OReg RAX; q8 0]); X (I Isub [OReg RAX; at8 RDX 1])] ++ flat_map (sbbChk 99) (seq 1 (n - 1)) ++ [mov RDX RCX; jmp ln] ++ [lab 80] ++ p_short.
Definition p_long : list tinstr := [ld RCX RDX 8; cmpi RCX bl; jnc 82; zero RAX] ++ flat_map zeroChk (seq 1 (n - 1)) ++ [mov RDX RCX; jmp lp] ++ [lab 82] ++ p_sub.
Definition p_code : list tinstr := [ld RCX RDX 0; Bt RCX 63; jnc 80; Bt RCX 62; jnc 81] ++ conv_b n ton ++ [lab 81] ++ p_long.
Lemma sb_int : - 2 ^ 31 <= sb' < 2 ^ 31. Proof. exact (proj1 Fb). Qed.
Lemma bl_p : 0 < bl. Proof. apply (bl_pos q P OK HB). Qed.
Lemma fs_set c m r v : FS4 0 c m -> ~ In r [RSP; RDI; RBP; RBX; R12; R13; R14; R15] -> 0 <= v < B -> FS4 0 c (setr m r v).
Proof.
  intros (ST & SV) Hr Hv. destruct ST as (I1 & S1 & S2 & S3). assert (NE : forall r', In r' [RSP; RDI; RBP; RBX; R12; R13; R14; R15] -> regs (setr m r v) r' = regs m r') by (intros r' H; cbn [setr regs]; apply rupd_neq; intros ->; contradiction).
  split; [|exact SV]. split; [|rewrite !NE by (cbn [In]; tauto); auto]. apply inv_setr; [exact I1|exact Hv|]. intros H. apply Hr. cbn [In] in *. tauto.
Qed.
Ltac nin9 := cbn [In]; intuition discriminate.
(** a short count *)
Lemma P_short c m : okc c -> FS4 0 c m -> regs m RSI = pa -> regs m RCX = word_of sb' tb -> tlong tb = false -> tw lay ra p_short Q (m, None).
Proof.
  intros Hc F Es EC T. pose proof sb_int as SI. pose proof bl_p as BP. pose proof (v_short q P m0 pb sb' tb lb vb Fb Vb T) as EV. assert (WB : W32 = 2 ^ 32) by reflexivity. assert (BB : B = 2 ^ 64) by reflexivity.
  assert (CV : regs m RCX mod W32 = sb' mod W32) by (rewrite EC; apply word_lo). assert (SX : sx32 (regs m RCX) = sb') by (rewrite EC; apply sx32_word, Fb).
  unfold p_short. cbn [app]. eapply t_cmpj; [reflexivity|reflexivity| |]; rewrite CV; cbn [scond_holds]; rewrite sx32_mod, (sx32_int sb') by apply Fb; change (sx32 0) with 0; intros f N.
  - apply Z.ltb_lt in N. do 3 (eapply tw_cons; [reflexivity|]). unfold p_neg. cbn [app]. apply t_hit.
    assert (EV2 : vb = q + sb') by (rewrite EV, <- (Z.mod_add sb' 1), Z.mod_small by lia; lia). assert (EN : (- sx32 (regs (setf m f) RCX)) mod W32 = - sb') by (cbn [setf regs]; rewrite SX; apply Z.mod_small; lia).
    apply t_neg32. rewrite EN. intros f2. eapply t_cmpj; [reflexivity|reflexivity| |]; cbn [setf setr regs]; rewrite rupd_eq, (Z.mod_small (- sb')) by lia; cbn [scond_holds]; intros f3 G.
    + apply Z.leb_le in G. do 2 (eapply tw_cons; [reflexivity|]). apply (Hz ltac:(lia) ltac:(lia) c); [exact Hc|]. apply (fs_set c (setf m f) RCX (- sb')); [exact F|nin9|lia].
    + apply Z.leb_gt in G. apply t_movsx. cbn [setf setr regs]. rewrite rupd_eq, sx32_int, (Z.mod_small (- sb')) by (unfold is_int32; lia). apply t_jmp. apply (Hn ltac:(lia) ltac:(lia) c); [exact Hc|].
      split; [apply (fs_set c _ RDX (- sb')); [apply (fs_set c (setf m f) RCX (- sb')); [exact F|nin9|lia]|nin9|lia]|]. cbn [setf setr regs]. rewrite rupd_eq, !rupd_neq by discriminate. split; [exact Es|lia].
  - apply Z.ltb_ge in N. assert (EV2 : vb = sb') by (rewrite EV; apply Z.mod_small; lia). 
    eapply t_cmpj; [reflexivity|reflexivity| |]; cbn [setf regs]; rewrite CV, (Z.mod_small sb') by lia; cbn [scond_holds]; intros f3 G.
    + apply Z.leb_le in G. do 2 (eapply tw_cons; [reflexivity|]). unfold p_neg. apply tw_app. apply t_skip; [reflexivity|]. apply (Hz ltac:(lia) ltac:(lia) c); [exact Hc|exact F].
    + apply Z.leb_gt in G. apply t_movsx. cbn [setf regs]. rewrite SX, (Z.mod_small sb') by lia. apply t_jmp. unfold p_neg. apply tw_app. apply t_skip; [cbn [tnolab lab jmp]; rewrite (Llp 83%nat) by (cbn [In]; tauto); reflexivity|].
      apply (Hp ltac:(lia) c); [exact Hc|]. split; [apply (fs_set c (setf m f3) RDX sb'); [exact F|nin9|lia]|]. cbn [setf setr regs]. rewrite rupd_eq, rupd_neq by discriminate. split; [exact Es|lia].
Qed.
Lemma fs_words c m : FS4 0 c m -> words m. Proof. intros H. apply H. Qed.
Lemma fs_same c m (HF : FS4 0 c m) m2 : same m m2 -> words m2 -> FS4 0 c m2.
Proof.
  intros (M2 & R2) W2. destruct HF as (ST & SV). destruct ST as ((W & MI & RI) & S1 & S2 & S3). split.
  - split; [split; [exact W2|]; split|].
    + intros x H1 H2. rewrite M2. apply MI; assumption.
    + intros r Hr. rewrite R2; [apply RI, Hr|]. intros ->. cbn [In] in Hr. intuition discriminate.
    + rewrite !R2 by discriminate. auto.
  - destruct SV as (V1 & V3 & V4 & V5). split; [|split; [|split]]; rewrite M2; assumption.
Qed.
Lemma n_pos : (1 <= n)%nat. Proof. apply (zk_n _ _ OK). Qed.
Lemma skip_short l m' : (l = lp \/ l = ln \/ l = 99%nat) -> tw lay ra rest Q (m', Some l) -> tw lay ra ([lab 80] ++ p_short) Q (m', Some l).
Proof.
  intros Hl H. assert (L : forall x, In x [80%nat; 81%nat; 82%nat; 83%nat] -> Nat.eqb l x = false) by (intros x Hx; destruct Hl as [Hl|[Hl|Hl]]; subst l; [apply Llp, Hx|apply Lln, Hx|]; cbn [In] in Hx; intuition (subst; reflexivity)).
  unfold p_short, p_neg. rewrite !app_assoc. apply t_over; [|exact H]. cbn [app tnolab lab jmp]. rewrite !L by (cbn [In]; tauto). reflexivity.
Qed.
(** a long count: its limbs are at p + 8 *)
Section Long.
Variables (c : Z) (m : mach) (p : Z).
Hypothesis Hc : okc c.
Hypothesis HF : FS4 0 c m.
Hypothesis Es : regs m RSI = pa.
Hypothesis Ex : regs m RDX = p.
Hypothesis HO : Opd c m p vb.
Notation bi i := (mem m (p + 8 + 8 * Z.of_nat i)).
Notation qi i := (mem m (lay Sq + 8 * Z.of_nat i)).
Lemma wm : words m. Proof. apply HF. Qed.
Lemma b_at : 0 <= p /\ p mod 8 = 0 /\ X86RawFacts.ptr (p + 8) n /\ es (fun i => bi i) n = vb.
Proof. destruct HO as ((s & l & (F1 & F2 & F3) & Ev) & _). pose proof F3 as (A1 & A2 & _). apply at_tail in F3. destruct (at_vals _ _ _ _ F2 F3) as [H3 H4]. split; [exact A1|]. split; [exact A2|]. split; [exact H3|]. rewrite <- Ev, <- H4. reflexivity. Qed.
Lemma q_at : X86RawFacts.ptr (lay Sq) n /\ es (fun i => qi i) n = q.
Proof.
  destruct HF as ((I1 & _) & _). pose proof (data_at P lay m0 D Rdy pr K Opr Dpr Bpr 0 m Sq ltac:(lia) I1) as A. destruct (at_vals _ _ _ _ (q_ok q P OK) A) as [H3 H4]. split; [exact H3|]. cbn [data] in H4. rewrite (q_eval q P OK) in H4. exact H4.
Qed.
Lemma es_zero (x : nat -> Z) k : (forall i, (1 <= i < 1 + k)%nat -> x i = 0) -> es x (1 + k) = x 0%nat.
Proof. induction k as [|k IH]; intros H; [cbn [Nat.add es]; cbn; lia|]. replace (1 + S k)%nat with (S (1 + k)) by lia. change (es x (S (1 + k))) with (es x (1 + k) + x (1 + k)%nat * B ^ Z.of_nat (1 + k)). rewrite IH, (H (1 + k)%nat) by (intros; try apply H; lia). lia. Qed.
Lemma es_nn (x : nat -> Z) k : (forall i, 0 <= x i < B) -> 0 <= es x k.
Proof. intros H. induction k as [|k IH]; cbn [es]; [lia|]. pose proof (H k). pose proof (Bp k). nia. Qed.
Lemma es_ge (x : nat -> Z) k i : (forall i, 0 <= x i < B) -> (i < k)%nat -> x i * B ^ Z.of_nat i <= es x k.
Proof.
  intros H. induction k as [|k IH]; intros Hi; [lia|]. cbn [es]. pose proof (H k). pose proof (Bp k). destruct (Nat.eq_dec i k) as [->|Ne]; [pose proof (es_nn x k H); lia|]. pose proof (IH ltac:(lia)). nia.
Qed.
Lemma q0_at : 0 <= qi 0 < B. Proof. apply wm. Qed.
Lemma cd_eq : cd lay p n m = q - vb.
Proof. unfold cd. rewrite (proj2 q_at), (proj2 (proj2 (proj2 b_at))). reflexivity. Qed.
Lemma P_sub : bl <= vb -> tw lay ra p_sub Q (m, None).
Proof.
  intros Hb. destruct b_at as (Zp & Mp & Pp & Eb). destruct q_at as (Pq & Eq). pose proof wm as W. pose proof bl_p as BP. pose proof n_pos as NP. pose proof Rb as RB. assert (BB : B = 2 ^ 64) by reflexivity.
  set (q0 := qi 0). set (b0 := bi 0). assert (Rq0 : 0 <= q0 < B) by apply W. assert (Rb0 : 0 <= b0 < B) by apply W. set (r := (q0 - b0) mod B). assert (Rr : 0 <= r < B) by (apply Z.mod_pos_bound; reflexivity).
  assert (D1 : diff lay p m 1 = q0 - b0) by (unfold diff; cbn [es]; fold q0 b0; change (B ^ Z.of_nat 0) with 1; lia).
  assert (LOW : (q - vb) mod B = r) by (destruct (cd_low lay p n m 1 NP) as [h Eh]; rewrite cd_eq, D1 in Eh; rewrite Eh; change (Z.of_nat 1) with 1; rewrite Z.pow_1_r, Z.mul_comm, Z_mod_plus_full; reflexivity).
  unfold p_sub. cbn [app].
  eapply t_ldo; [apply (q_cell lay n Pq m 0); lia|]. eapply t_subo; [apply (ptr_cell lay p n Pp Zp _ 0%nat); [lia|cbn [setf setr regs]; rewrite rupd_neq by discriminate; exact Ex]|cbn [setf setr regs]; rewrite rupd_eq; exact Rq0|exact Rb0|]. cbn [setf setr regs]. rewrite rupd_eq. fold q0 b0 r. intros f1 _.
  match goal with |- X86TFacts.tw _ _ _ _ (?s, None) => set (M := s) end.
  assert (FM : FS4 0 c M) by (apply (fs_set c (setf (setr m RCX q0) (fl m)) RCX r); [apply (fs_set c m RCX q0); [exact HF|nin9|exact Rq0]|nin9|exact Rr]).
  assert (MM : mem M = mem m) by reflexivity. assert (EC : regs M RCX = r) by (unfold M; cbn [setf setr regs]; apply rupd_eq). assert (ED : regs M RDX = p) by (unfold M; cbn [setf setr regs]; rewrite !rupd_neq by discriminate; exact Ex). assert (ES : regs M RSI = pa) by (unfold M; cbn [setf setr regs]; rewrite !rupd_neq by discriminate; exact Es).
  clearbody M.
  assert (ZZ : forall m2, FS4 0 c m2 -> bl <= q - vb -> tw lay ra ([lab 80] ++ p_short) Q (m2, Some 99%nat)) by (intros m2 F2 G; apply skip_short; [tauto|]; apply (Hz Hb G c m2 Hc F2)).
  apply t_cmpi; [rewrite EC; exact Rr|lia|]. rewrite EC. intros f2 C2 _. apply t_jnc; cbn [setf X86.fl]; rewrite C2; intros G.
  - apply Z.ltb_ge in G. do 2 (eapply tw_cons; [reflexivity|]). apply t_over; [apply sbbChk_nolab|]. do 2 (eapply tw_cons; [reflexivity|]). apply ZZ; [exact FM|]. destruct (Z.lt_ge_cases (q - vb) bl) as [H|H]; [|exact H]. rewrite Z.mod_small in LOW by lia. lia.
  - apply Z.ltb_lt in G. eapply t_ldo; [apply (q_cell lay n Pq _ 0); lia|]. eapply t_subo; [apply (ptr_cell lay p n Pp Zp _ 0%nat); [lia|cbn [setf setr regs]; rewrite rupd_neq by discriminate; exact ED]|cbn [setf setr regs mem]; rewrite rupd_eq, MM; exact Rq0|cbn [setf setr mem]; rewrite MM; exact Rb0|]. cbn [setf setr regs mem]. rewrite rupd_eq, MM. fold q0 b0. intros f3 C3'.
    assert (DI : forall i, diff lay p M i = diff lay p m i) by (intros i; unfold diff; rewrite MM; reflexivity). assert (CM : cd lay p n M = q - vb) by (rewrite <- cd_eq; unfold cd; rewrite MM; reflexivity).
    apply (t_sbbs lay ra p n Pp Zp Pq M (fs_words c M FM) ED r Rr 99%nat _ Q (n - 1) 1); [lia|lia| | | | |].
    + split; [reflexivity|]. intros x Hx. cbn [setf setr regs]. rewrite !rupd_neq by exact Hx. reflexivity.
    + fold r. apply (fs_words c). apply (fs_set c (setf (setr (setf M f2) RAX q0) f2) RAX r); [apply (fs_set c M RAX q0); [exact FM|nin9|exact Rq0]|nin9|exact Rr].
    + rewrite DI, D1. cbn [setf X86.fl]. rewrite C3'. change (Z.of_nat 1) with 1. rewrite Z.pow_1_r. unfold r. destruct (q0 <? b0) eqn:E; cbn [b2z]; [apply Z.ltb_lt in E|apply Z.ltb_ge in E].
      * rewrite <- (Z.mod_add (q0 - b0) 1), Z.mod_small by lia. lia.
      * rewrite Z.mod_small by lia. lia.
    + intros m2 S2 W2 E2. change (diff lay p M n) with (cd lay p n M) in E2. rewrite CM in E2. assert (QR : q - vb = r). { destruct (cf (fl m2)); cbn [b2z] in E2; [|lia]. exfalso. assert (B ^ 1 <= B ^ Z.of_nat n) by (apply Z.pow_le_mono_r; lia). lia. }
      pose proof (fs_same c M FM m2 S2 W2) as F2. destruct S2 as (S2a & S2b). apply t_mov. apply t_jmp. rewrite S2b, EC by discriminate. apply skip_short; [tauto|]. apply (Hn Hb ltac:(lia) c); [exact Hc|]. split; [apply (fs_set c m2 RDX r); [exact F2|nin9|exact Rr]|]. cbn [setr regs]. rewrite rupd_eq, rupd_neq by discriminate. rewrite S2b by discriminate. split; [exact ES|lia].
    + intros m2 S2 W2 E2. rewrite CM in E2. do 2 (eapply tw_cons; [reflexivity|]). apply ZZ; [exact (fs_same c M FM m2 S2 W2)|lia].
Qed.
End Long.
Lemma P_long c m p : okc c -> FS4 0 c m -> regs m RSI = pa -> regs m RDX = p -> Opd c m p vb -> tw lay ra p_long Q (m, None).
Proof.
  intros Hc F Es Ex HO. destruct (b_at c m p HO) as (Zp & Mp & Pp & Eb). pose proof (fs_words c m F) as W. pose proof bl_p as BP. pose proof n_pos as NP. pose proof Rb as RB. assert (BB : B = 2 ^ 64) by reflexivity.
  set (b0 := mem m (p + 8)). assert (Rb0 : 0 <= b0 < B) by apply W. destruct Pp as (P1 & P2 & P3).
  assert (B0 : mem m (p + 8 + 8 * Z.of_nat 0) = b0) by (unfold b0; f_equal; lia).
  assert (LE : b0 <= vb) by (rewrite <- Eb; pose proof (es_ge (fun i => mem m (p + 8 + 8 * Z.of_nat i)) n 0 ltac:(intros; apply W) ltac:(lia)) as H; cbn beta in H; rewrite B0 in H; change (B ^ Z.of_nat 0) with 1 in H; lia).
  unfold p_long. cbn [app]. apply (t_ld lay ra m RCX RDX 8 (p + 8)); [rewrite Ex; apply Z.mod_small; lia|exact P2|]. fold b0.
  match goal with |- X86TFacts.tw _ _ _ _ (?s, None) => set (M := s) end.
  assert (FM : FS4 0 c M) by (apply (fs_set c m RCX b0); [exact F|nin9|exact Rb0]).
  assert (MM : mem M = mem m) by reflexivity. assert (EC : regs M RCX = b0) by (unfold M; cbn [setr regs]; apply rupd_eq). assert (ED : regs M RDX = p) by (unfold M; cbn [setr regs]; rewrite !rupd_neq by discriminate; exact Ex). assert (ES : regs M RSI = pa) by (unfold M; cbn [setr regs]; rewrite !rupd_neq by discriminate; exact Es).
  clearbody M. assert (OM : forall m2, mem m2 = mem m -> Opd c m2 p vb) by (intros m2 E; apply (opd_ext c c m m2 p vb); [lia|intros; rewrite E; reflexivity|exact HO]).
  apply t_cmpi; [rewrite EC; exact Rb0|lia|]. rewrite EC. intros f2 C2 _. apply t_jnc; cbn [setf X86.fl]; rewrite C2; intros G.
  - apply Z.ltb_ge in G. eapply tw_cons; [reflexivity|]. apply t_over; [apply zeroChk_nolab|]. do 2 (eapply tw_cons; [reflexivity|]). apply t_hit. apply (P_sub c (setf M f2) p); [exact Hc|exact FM|exact ES|exact ED|apply OM; exact MM|lia].
  - apply Z.ltb_lt in G. apply t_zero. intros f3. change (setf (setr (setf M f2) RAX 0) f3) with (setf (setr M RAX 0) f3). assert (FZ : FS4 0 c (setr M RAX 0)) by (apply (fs_set c M RAX 0); [exact FM|nin9|lia]).
    assert (ED' : regs (setr M RAX 0) RDX = p) by (cbn [setr regs]; rewrite rupd_neq by discriminate; exact ED). assert (ES' : regs (setr M RAX 0) RSI = pa) by (cbn [setr regs]; rewrite rupd_neq by discriminate; exact ES). assert (EC' : regs (setr M RAX 0) RCX = b0) by (cbn [setr regs]; rewrite rupd_neq by discriminate; exact EC).
    apply (t_zeros lay ra p n (conj P1 (conj P2 P3)) Zp (setr M RAX 0) _ Q (n - 1) 1 f3); [lia|apply (fs_words c _ FZ)|exact ED'|cbn [setr regs]; apply rupd_eq| |].
    + cbn [setr mem]. rewrite MM. intros AZ f4. assert (EV : vb = b0) by (rewrite <- Eb, <- B0; replace n with (1 + (n - 1))%nat at 1 by lia; apply es_zero; exact AZ).
      apply t_mov. apply t_jmp. cbn [setf setr regs] in *. rewrite EC'. apply t_miss; [apply Llp; cbn [In]; tauto|]. unfold p_sub. apply t_over; [reflexivity|]. apply t_over; [apply sbbChk_nolab|]. apply t_over; [reflexivity|]. apply skip_short; [tauto|].
      apply (Hp ltac:(lia) c); [exact Hc|]. split; [apply (fs_set c (setr M RAX 0) RDX b0); [exact FZ|nin9|exact Rb0]|]. cbn [setf setr regs]. rewrite rupd_eq, rupd_neq by discriminate. split; [exact ES'|lia].
    + cbn [setr mem]. rewrite MM. intros j Hj Nz f4. do 2 (eapply tw_cons; [reflexivity|]). apply t_hit. apply (P_sub c (setf (setr M RAX 0) f4) p); [exact Hc|exact FZ|exact ES'|exact ED'|apply OM; exact MM|].
      pose proof (es_ge (fun i => mem m (p + 8 + 8 * Z.of_nat i)) n j ltac:(intros; apply W) ltac:(lia)) as H. cbn beta in H. rewrite Eb in H. assert (Wj : 0 <= mem m (p + 8 + 8 * Z.of_nat j) < B) by apply W. assert (B ^ 1 <= B ^ Z.of_nat j) by (apply Z.pow_le_mono_r; lia). rewrite Z.pow_1_r in *. nia.
Qed.
Lemma p_code_eq : parseShift lay ra n opt bl lp ln 99 ++ rest = p_code.
Proof. unfold parseShift, p_code, p_long, p_sub, p_short, p_neg. repeat rewrite <- app_assoc. reflexivity. Qed.
Lemma ld_b c m code : FS4 0 c m -> regs m RSI = pa -> regs m RDX = pb -> (forall m', FS4 0 c m' -> regs m' RSI = pa -> regs m' RDX = pb -> regs m' RCX = word_of sb' tb -> tw lay ra code Q (m', None)) -> tw lay ra (ld RCX RDX 0 :: code) Q (m, None).
Proof.
  intros F E1 E2 H. pose proof (e_ptr q P OK m0 pb sb' tb lb Fb) as (A1 & A2 & A3). pose proof (word_range sb' tb (e_type q P sb' tb lb vb Vb)) as WR.
  apply (t_ld lay ra _ _ _ _ pb); [rewrite E2, Z.add_0_r; apply Z.mod_small; lia|exact A2|]. rewrite (e_headk P lay m0 D pr Dst pb sb' tb lb Fb Ob Sb m) by apply F. apply H; [apply fs_set; [exact F|nin9|exact WR]| | |]; rg; try reflexivity; assumption.
Qed.
Lemma opd_b m : FS4 0 32 m -> tlong tb = true -> tmont tb = false -> Opd 32 m pb vb.
Proof.
  intros F T M. pose proof (fields0 32 m pb sb' tb lb F Fb Ob Sb) as F'. split; [|split; [exact Rb|split; [right; exact Ob|exact Sb]]]. exists sb', lb. split; [|eapply v_long; eassumption].
  assert (E : tb = LONG); [|rewrite <- E; exact F']. destruct (e_type q P sb' tb lb vb Vb) as [E|[E|[E|E]]]; rewrite E in *; try discriminate; reflexivity.
Qed.
Lemma P_parse m : FS4 0 32 m -> regs m RSI = pa -> regs m RDX = pb -> tw lay ra (parseShift lay ra n opt bl lp ln 99 ++ rest) Q (m, None).
Proof.
  intros F E1 E2. rewrite p_code_eq. unfold p_code. pose proof (e_type q P sb' tb lb vb Vb) as TY. cbn [app]. apply (ld_b 32 m); [exact F|exact E1|exact E2|]. clear F E1 E2 m. intros m F E1 E2 EC.
  apply t_btnc; rewrite EC, word_63 by exact TY; intros f1 T.
  - do 2 (eapply tw_cons; [reflexivity|]). apply t_over; [reflexivity|]. apply t_miss; [reflexivity|]. unfold p_long. do 3 (apply t_over; [try reflexivity; apply zeroChk_nolab|]). apply t_over; [reflexivity|]. unfold p_sub. apply t_over; [reflexivity|]. apply t_over; [apply sbbChk_nolab|]. apply t_over; [reflexivity|]. cbn [app]. apply t_hit.
    apply (P_short 32); [left; reflexivity|exact F|exact E1|exact EC|exact T].
  - apply t_btnc; cbn [setf regs]; rewrite EC, word_62 by exact TY; intros f2 M.
    + apply t_over; [reflexivity|]. apply t_hit. apply (P_long 32 _ pb); [left; reflexivity|exact F|exact E1|exact E2|]. apply (opd_b (setf (setf m f1) f2)); assumption.
    + pose proof (sb_pos P) as SP. pose proof (fields0 32 m pb sb' tb lb F Fb Ob Sb) as F'.
      apply (k4_b ton pb sb' tb lb vb (cl_norm pb sb' tb lb vb Vb T) Rb 32 (setf (setf m f1) f2)); [reflexivity|lia|lia|exact F|exact F'| |exact E2|].
      * unfold xoff in Ob. lia.
      * intros m' (F2 & G1 & G2 & G3). apply t_lab. apply (P_long (32 + N8) m' (sp0 - (32 + N8))); [right; reflexivity|exact F2|rewrite G2; exact E1|exact G1|exact G3].
Qed.
End Parse.
End Shift.
