(** Operations with a stack frame: entry, exit, conversion of an operand to a
    temporary element on the stack. *)
From Coq Require Import ZArith Znumtheory List Bool Arith Lia.
From Verif Require Import Limbs LimbsFacts Gen GenFacts Spec Raw RawFacts Fr FrSpec X86 X86Gen X86Sim X86Mont X86Call X86Routines X86Raw X86RawFacts X86RawFacts2 X86RawFacts3 X86Final X86T X86TWords X86TFacts X86THelp X86THelp2 X86THelp3 X86TSpec X86TInv X86TConv.
Import ListNotations.
Open Scope Z_scope.

Ltac nin' := cbn [In]; let H := fresh in intros H; repeat destruct H as [H|H]; try discriminate H; contradiction H.

Section Frame.
Variable P : zq.
Notation n := (p_n64 P).
Notation opt := (p_opt P).
Variable lay : sym -> Z.
Variable ra : Z.
Hypothesis Hra : 0 <= ra < B.
Variable m0 : mach.
Variable D : Z.
Hypothesis Rdy : xready P lay D m0.
Notation sp0 := (regs m0 RSP).
Variable pr : Z.
Variable K : nat.
Hypothesis Opr : pr + 8 * Z.of_nat K <= sp0 - D \/ sp0 + 8 <= pr.
Hypothesis Dpr : forall s, lay s + 8 * Z.of_nat (length (data P s)) <= pr \/ pr + 8 * Z.of_nat K <= lay s.
Hypothesis Bpr : K <> 0%nat -> 0 <= pr /\ pr mod 8 = 0 /\ pr + 8 * Z.of_nat K <= B.
Notation Inv := (Inv m0 D pr).
Notation St := (St m0 D pr).
Ltac inv1 := first [assumption | apply inv_setf | apply inv_setr; [|try lia|nin'] | apply (inv_stk m0 D pr K Opr Bpr); [|try lia|try lia] ].
Ltac inv := repeat inv1.
Ltac stt H := let H1 := fresh in let H2 := fresh in let H3 := fresh in let H4 := fresh in pose proof H as (H1 & H2 & H3 & H4); split; [inv|split; [rg; try lia|split; [rg; try lia|rg; try lia]]].
Notation N8 := (8 * Z.of_nat (S n)).
Notation sp_al := (sp_al P lay m0 D Rdy).
Notation sp0_top := (sp0_top P lay m0 D Rdy).
Lemma al_add c c' : c mod 8 = 0 -> c' mod 8 = 0 -> (c + c') mod 8 = 0.
Proof. intros H1 H2. rewrite Z.add_mod, H1, H2 by lia. reflexivity. Qed.
Lemma N8_al : N8 mod 8 = 0. Proof. rewrite Z.mul_comm. apply Z.mod_mul. lia. Qed.
Lemma ready_at k m D' : (k <= K)%nat -> Inv k m -> regs m RSP mod 8 = 0 -> 0 <= D' -> sp0 - D <= regs m RSP - D' -> regs m RSP <= sp0 -> xready P lay D' m.
Proof.
  intros Hk HI H1 H0 H2 H3. pose proof (xr_room _ _ _ _ Rdy). split; [apply HI|exact H1|lia|]. intros s. split; [apply (data_at P lay m0 D Rdy pr K Opr Dpr Bpr k m s Hk HI)|]. destruct (xr_data _ _ _ _ Rdy s) as [_ O]. unfold xoff in *. lia.
Qed.
(** *** conversions of an operand, which is off the stack or in the frame *)
Section ConvG.
Variable f : mach -> option mach.
Variable RS : list Z -> Prop.
Variable S0 : Z.
Variables pa s t : Z.
Variable l : list Z.
Hypothesis HS0 : 0 <= S0.
Hypothesis Hf : forall m1 D' pr', S0 <= D' -> xready P lay D' m1 -> xdest P lay D' m1 pr' -> xfields n m1 pa s t l -> xoff D' m1 pa (S n) -> (pa = pr' \/ xapart n pa pr') -> regs m1 RDI = pr' -> regs m1 RSI = pa ->
  exists m' L, f m1 = Some m' /\ RS L /\ Cres D' (S n) pr' L m1 m'.
Variables (k : nat) (c di bp : Z) (m : mach) (rest : list tinstr) (Q : X86RawFacts.st -> Prop).
Hypothesis Og : pa + N8 <= sp0 - D \/ sp0 - c <= pa.
Hypothesis Hk : (k <= K)%nat.
Hypothesis C1 : c mod 8 = 0.
Hypothesis C2 : 0 <= c.
Hypothesis C3 : c + N8 + 24 + S0 <= D.
Hypothesis HS : St k c di bp m.
Hypothesis Fa : xfields n m pa s t l.
Notation tmp := (sp0 - (c + N8)).
Definition ConvPost (r other : reg) (L : list Z) (m' : mach) : Prop :=
  St k (c + N8) di bp m' /\ regs m' r = tmp /\ regs m' other = regs m other /\ at_addr m' tmp L /\ (forall x, sp0 - c <= x < sp0 + 8 -> mem m' x = mem m x) /\ (forall x, ~ (sp0 - D <= x < sp0) -> mem m' x = mem m x).
(** the call in the middle *)
Lemma conv_callG m2 : St k (c + N8 + 16) tmp bp m2 -> regs m2 RSI = pa -> (forall x, ~ (sp0 - D <= x < sp0 - c) -> mem m2 x = mem m x) ->
  exists m' L, f (pushed ra m2) = Some m' /\ RS L /\ at_addr m' tmp L /\ St k (c + N8 + 16) tmp bp m' /\ (forall x, tmp - 16 <= x < tmp \/ sp0 - c <= x < sp0 + 8 -> mem m' x = mem m2 x) /\ (forall x, ~ (sp0 - D <= x < sp0) -> mem m' x = mem m2 x).
Proof.
  intros ST2 E2 M2. pose proof ST2 as (I2 & SP2 & DI2 & BP2). pose proof (xr_room _ _ _ _ Rdy) as RM. pose proof sp0_top as TOP. pose proof N8_al as NA. pose proof (proj1 (xr_words _ _ _ _ Rdy) RSP) as RR. set (D' := D - (c + N8 + 24)).
  assert (AL : (sp0 - (c + N8 + 24)) mod 8 = 0) by (apply sp_al, al_add; [apply al_add; assumption|reflexivity]).
  assert (AT : tmp mod 8 = 0) by (apply sp_al, al_add; assumption).
  assert (IP : Inv k (pushed ra m2)) by (unfold pushed; inv).
  assert (RP : regs (pushed ra m2) RSP = sp0 - (c + N8 + 24)) by (unfold pushed; rg; lia).
  destruct (Hf (pushed ra m2) D' tmp) as (m' & L & E & HL & A & (W & M & CS & SP') & DI').
  - unfold D'. lia.
  - apply (ready_at k); [exact Hk|exact IP|rewrite RP; exact AL|unfold D'; lia|rewrite RP; unfold D'; lia|rewrite RP; lia].
  - split; [lia|exact AT|lia|right; rewrite RP; lia|]. intros sy. destruct (xr_data _ _ _ _ Rdy sy) as [_ O]. unfold xoff in O. lia.
  - destruct Fa as (F1 & F2 & F3). split; [exact F1|]. split; [exact F2|]. eapply at_ext; [|exact F3]. intros x Hx. cbn [length] in Hx. rewrite (proj1 F2) in Hx. unfold pushed. rg. rewrite mupd_neq by lia. apply M2. lia.
  - unfold xoff in *. rewrite RP. unfold D'. lia.
  - right. unfold xapart. lia.
  - unfold pushed. rg. exact DI2.
  - unfold pushed. rg. exact E2.
  - rewrite RP in M, SP'. exists m', L. split; [exact E|]. split; [exact HL|]. split; [exact A|].
    assert (MM : forall x, ~ (tmp <= x < tmp + N8) -> ~ (sp0 - (c + N8 + 24) - D' <= x < tmp - 16) -> mem m' x = mem m2 x).
    { intros x H1 H2. rewrite M; [|exact H1|unfold D' in *; lia]. unfold pushed. rg. apply mupd_neq. unfold D' in *. lia. }
    split.
    + split; [|split; [rewrite SP', Z.mod_small by lia; lia|split; [rewrite DI'; unfold pushed; rg; exact DI2|rewrite CS by (unfold callee_saved; cbn [In]; tauto); unfold pushed; rg; exact BP2]]].
      destruct I2 as (W2 & MI & RI). split; [exact W|]. split.
      * intros x H1 H2. rewrite MM by (unfold D'; lia). apply MI; assumption.
      * intros r Hr. rewrite CS by (unfold callee_saved; cbn [In] in *; tauto). unfold pushed. cbn [setr setm regs]. rewrite rupd_neq by (cbn [In] in Hr; intuition (subst; discriminate)). apply RI, Hr.
    + split; intros x Hx; apply MM; unfold D'; lia.
Qed.
Lemma b_conv_aG : regs m RSI = pa -> (forall m' L, RS L -> ConvPost RSI RDX L m' -> tw lay ra rest Q (m', None)) -> tw lay ra (conv_a n f ++ rest) Q (m, None).
Proof.
  intros E H. pose proof HS as (I0 & SP & ED & EB). pose proof (xr_room _ _ _ _ Rdy) as RM. pose proof sp0_top as TOP. pose proof N8_al as NA. pose proof (proj1 (xr_words _ _ _ _ Rdy) RSP) as RR. pose proof (st_range _ _ _ _ _ _ _ _ RDX HS) as R1. pose proof (st_range _ _ _ _ _ _ _ _ RDI HS) as R2.
  assert (AT : tmp mod 8 = 0) by (apply sp_al, al_add; assumption). assert (A8 : (tmp - 8) mod 8 = 0) by (rewrite Zminus_mod, AT; reflexivity). assert (A16 : (tmp - 16) mod 8 = 0) by (rewrite Zminus_mod, AT; reflexivity).
  unfold conv_a. cbn [app]. apply t_mov. apply t_subi; [rg; rewrite SP; lia|]. intros f1. rg. rewrite SP. replace (sp0 - c - Z.of_nat (n + 1) * 8) with tmp by lia. apply t_mov. rg. apply t_push; [rg; exact AT|rg; lia|]. rg. apply t_push; [rg; exact A8|rg; lia|]. rg.
  set (m2 := setr (setm _ (tmp - 8 - 8) _) RSP _).
  assert (ST2 : St k (c + N8 + 16) tmp bp m2) by (unfold m2; stt HS).
  destruct (conv_callG m2 ST2) as (m' & L & E' & HL & A & ST' & M1 & M2); [unfold m2; rg; exact E|intros x Hx; unfold m2; rg; rewrite !mupd_neq by lia; reflexivity|].
  eapply t_callf; [destruct ST2 as (_ & -> & _); apply sp_al, al_add; [apply al_add; assumption|reflexivity]|destruct ST2 as (_ & -> & _); lia|exact E'|].
  pose proof ST' as (_ & SP' & DI' & _). apply t_mov. rewrite DI'. pose proof (st_mrange _ _ _ _ _ _ _ _ (tmp - 8) ST') as MR1. pose proof (st_mrange _ _ _ _ _ _ _ _ (tmp - 16) ST') as MR2.
  assert (V2 : mem m' (tmp - 16) = di) by (rewrite M1 by lia; unfold m2; rg; replace (tmp - 8 - 8) with (tmp - 16) by lia; rewrite mupd_eq; exact ED).
  assert (V1 : mem m' (tmp - 8) = regs m RDX) by (rewrite M1 by lia; unfold m2; rg; rewrite mupd_neq by lia; apply mupd_eq).
  apply t_pop; [rg; rewrite SP'; replace (sp0 - (c + N8 + 16)) with (tmp - 16) by lia; exact A16|rg; lia|rg; lia|]. rg. rewrite SP'. replace (sp0 - (c + N8 + 16)) with (tmp - 16) by lia. rewrite V2. replace (tmp - 16 + 8) with (tmp - 8) by lia. apply t_pop; [rg; exact A8|rg; lia|rg; lia|]. rg. rewrite V1. replace (tmp - 8 + 8) with tmp by lia.
  apply (H _ L HL). split; [stt ST'|]. split; [rg; reflexivity|]. split; [rg; reflexivity|]. split; [eapply at_ext; [|exact A]; intros; reflexivity|]. split.
  - intros x Hx. rg. rewrite M1 by lia. unfold m2. rg. rewrite !mupd_neq by lia. reflexivity.
  - intros x Hx. rg. rewrite M2 by lia. unfold m2. rg. rewrite !mupd_neq by lia. reflexivity.
Qed.
Lemma b_conv_bG : regs m RDX = pa -> (forall m' L, RS L -> ConvPost RDX RSI L m' -> tw lay ra rest Q (m', None)) -> tw lay ra (conv_b n f ++ rest) Q (m, None).
Proof.
  intros E H. pose proof HS as (I0 & SP & ED & EB). pose proof (xr_room _ _ _ _ Rdy) as RM. pose proof sp0_top as TOP. pose proof N8_al as NA. pose proof (proj1 (xr_words _ _ _ _ Rdy) RSP) as RR. pose proof (st_range _ _ _ _ _ _ _ _ RDX HS) as R1. pose proof (st_range _ _ _ _ _ _ _ _ RDI HS) as R2. pose proof (st_range _ _ _ _ _ _ _ _ RSI HS) as R3.
  assert (AT : tmp mod 8 = 0) by (apply sp_al, al_add; assumption). assert (A8 : (tmp - 8) mod 8 = 0) by (rewrite Zminus_mod, AT; reflexivity). assert (A16 : (tmp - 16) mod 8 = 0) by (rewrite Zminus_mod, AT; reflexivity).
  unfold conv_b. cbn [app]. apply t_mov. apply t_subi; [rg; rewrite SP; lia|]. intros f1. rg. rewrite SP. replace (sp0 - c - Z.of_nat (n + 1) * 8) with tmp by lia. apply t_mov. rg. apply t_push; [rg; exact AT|rg; lia|]. rg. apply t_mov. rg. apply t_push; [rg; exact A8|rg; lia|]. rg.
  set (m2 := setr (setm _ (tmp - 8 - 8) _) RSP _).
  assert (ST2 : St k (c + N8 + 16) tmp bp m2) by (unfold m2; stt HS).
  destruct (conv_callG m2 ST2) as (m' & L & E' & HL & A & ST' & M1 & M2); [unfold m2; rg; exact E|intros x Hx; unfold m2; rg; rewrite !mupd_neq by lia; reflexivity|].
  eapply t_callf; [destruct ST2 as (_ & -> & _); apply sp_al, al_add; [apply al_add; assumption|reflexivity]|destruct ST2 as (_ & -> & _); lia|exact E'|].
  pose proof ST' as (_ & SP' & DI' & _). apply t_mov. rewrite DI'. pose proof (st_mrange _ _ _ _ _ _ _ _ (tmp - 8) ST') as MR1. pose proof (st_mrange _ _ _ _ _ _ _ _ (tmp - 16) ST') as MR2.
  assert (V2 : mem m' (tmp - 16) = di) by (rewrite M1 by lia; unfold m2; rg; replace (tmp - 8 - 8) with (tmp - 16) by lia; rewrite mupd_eq; exact ED).
  assert (V1 : mem m' (tmp - 8) = regs m RSI) by (rewrite M1 by lia; unfold m2; rg; rewrite mupd_neq by lia; apply mupd_eq).
  apply t_pop; [rg; rewrite SP'; replace (sp0 - (c + N8 + 16)) with (tmp - 16) by lia; exact A16|rg; lia|rg; lia|]. rg. rewrite SP'. replace (sp0 - (c + N8 + 16)) with (tmp - 16) by lia. rewrite V2. replace (tmp - 16 + 8) with (tmp - 8) by lia. apply t_pop; [rg; exact A8|rg; lia|rg; lia|]. rg. rewrite V1. replace (tmp - 8 + 8) with tmp by lia.
  apply (H _ L HL). split; [stt ST'|]. split; [rg; reflexivity|]. split; [rg; reflexivity|]. split; [eapply at_ext; [|exact A]; intros; reflexivity|]. split.
  - intros x Hx. rg. rewrite M1 by lia. unfold m2. rg. rewrite !mupd_neq by lia. reflexivity.
  - intros x Hx. rg. rewrite M2 by lia. unfold m2. rg. rewrite !mupd_neq by lia. reflexivity.
Qed.
End ConvG.
Section Conv.
Variable f : mach -> option mach.
Variable RS : list Z -> Prop.
Variable S0 : Z.
Variables pa s t : Z.
Variable l : list Z.
Hypothesis Oa : xoff D m0 pa (S n).
Hypothesis HS0 : 0 <= S0.
Hypothesis Hf : forall m1 D' pr', S0 <= D' -> xready P lay D' m1 -> xdest P lay D' m1 pr' -> xfields n m1 pa s t l -> xoff D' m1 pa (S n) -> (pa = pr' \/ xapart n pa pr') -> regs m1 RDI = pr' -> regs m1 RSI = pa ->
  exists m' L, f m1 = Some m' /\ RS L /\ Cres D' (S n) pr' L m1 m'.
Variables (k : nat) (c di bp : Z) (m : mach) (rest : list tinstr) (Q : X86RawFacts.st -> Prop).
Hypothesis Hk : (k <= K)%nat.
Hypothesis C1 : c mod 8 = 0.
Hypothesis C2 : 0 <= c.
Hypothesis C3 : c + N8 + 24 + S0 <= D.
Hypothesis HS : St k c di bp m.
Hypothesis Fa : xfields n m pa s t l.
Lemma off_frame : pa + N8 <= sp0 - D \/ sp0 - c <= pa. Proof. clear - Oa C2. unfold xoff in Oa. lia. Qed.
Lemma b_conv_a : regs m RSI = pa -> (forall m' L, RS L -> ConvPost k c di bp m RSI RDX L m' -> tw lay ra rest Q (m', None)) -> tw lay ra (conv_a n f ++ rest) Q (m, None).
Proof. exact (b_conv_aG f RS S0 pa s t l HS0 Hf k c di bp m rest Q off_frame Hk C1 C2 C3 HS Fa). Qed.
Lemma b_conv_b : regs m RDX = pa -> (forall m' L, RS L -> ConvPost k c di bp m RDX RSI L m' -> tw lay ra rest Q (m', None)) -> tw lay ra (conv_b n f ++ rest) Q (m, None).
Proof. exact (b_conv_bG f RS S0 pa s t l HS0 Hf k c di bp m rest Q off_frame Hk C1 C2 C3 HS Fa). Qed.
End Conv.
(** *** entry and exit *)
Section EnterLeave.
Hypothesis HD : 24 <= D.
Definition saved (m : mach) : Prop := mem m (sp0 - 8) = regs m0 RBP /\ mem m (sp0 - 16) = regs m0 RSI /\ mem m (sp0 - 24) = regs m0 RDX.
Notation bp := (sp0 - 24).
Lemma b_enter rest Q : (forall m', St 0 24 (regs m0 RDI) bp m' -> saved m' -> (forall r, r <> RSP -> r <> RBP -> regs m' r = regs m0 r) -> (forall x, ~ (sp0 - 24 <= x < sp0) -> mem m' x = mem m0 x) -> tw lay ra rest Q (m', None)) -> tw lay ra (enterOp ++ rest) Q (m0, None).
Proof.
  intros H. pose proof (xr_room _ _ _ _ Rdy) as RM. pose proof sp0_top as TOP. pose proof (proj1 (xr_words _ _ _ _ Rdy)) as WR. pose proof (WR RSP). pose proof (WR RBP). pose proof (WR RSI). pose proof (WR RDX).
  pose proof (sp_al 8 eq_refl) as A8. pose proof (sp_al 16 eq_refl) as A16. pose proof (xr_align _ _ _ _ Rdy) as A0. pose proof (inv0 P lay m0 D Rdy pr) as I0.
  unfold enterOp. cbn [app]. apply t_push; [exact A0|lia|]. apply t_push; [rg; exact A8|rg; lia|]. rg. replace (sp0 - 8 - 8) with (sp0 - 16) by lia. apply t_push; [rg; exact A16|rg; lia|]. rg. replace (sp0 - 16 - 8) with (sp0 - 24) by lia. apply t_mov. rg.
  apply H.
  - split; [inv|]. split; [rg; reflexivity|]. split; rg; reflexivity.
  - split; [rg; rewrite !mupd_neq by lia; apply mupd_eq|]. split; [rg; rewrite mupd_neq by lia; apply mupd_eq|rg; apply mupd_eq].
  - intros r N1 N2. cbn [setr setm regs]. rewrite !rupd_neq by assumption. reflexivity.
  - intros x Hx. rg. rewrite !mupd_neq by lia. reflexivity.
Qed.
Lemma b_leave k c m rest Q : St k c (regs m0 RDI) bp m -> saved m -> (forall m', St k 0 (regs m0 RDI) (regs m0 RBP) m' -> (forall x, mem m' x = mem m x) -> regs m' RAX = regs m RAX -> regs m' RSI = regs m0 RSI -> regs m' RDX = regs m0 RDX -> tw lay ra (TRet :: rest) Q (m', None)) -> tw lay ra (leaveRet ++ rest) Q (m, None).
Proof.
  intros ST (V1 & V2 & V3) H. pose proof (xr_room _ _ _ _ Rdy) as RM. pose proof sp0_top as TOP. pose proof (proj1 (xr_words _ _ _ _ Rdy)) as WR. pose proof (WR RSP). pose proof (WR RBP). pose proof (WR RSI). pose proof (WR RDX). pose proof ST as (_ & SP & DI & EB).
  pose proof (sp_al 8 eq_refl) as A8. pose proof (sp_al 16 eq_refl) as A16. pose proof (sp_al 24 eq_refl) as A24.
  unfold leaveRet. cbn [app]. apply t_mov. rewrite EB. apply t_pop; [rg; exact A24|rg; lia|rg; lia|]. rg. rewrite V3. replace (sp0 - 24 + 8) with (sp0 - 16) by lia. apply t_pop; [rg; exact A16|rg; lia|rg; lia|]. rg. rewrite V2. replace (sp0 - 16 + 8) with (sp0 - 8) by lia. apply t_pop; [rg; exact A8|rg; lia|rg; lia|]. rg. rewrite V1. replace (sp0 - 8 + 8) with (sp0 - 0) by lia.
  apply H; [stt ST|intros x; reflexivity|rg; reflexivity|rg; reflexivity|rg; reflexivity].
Qed.
End EnterLeave.
End Frame.
