(** The tagged x86-64 shifts: from the proofs on the machine to the statements. *)
From Coq Require Import ZArith List Bool Arith Lia.
From Verif Require Import Limbs LimbsFacts Gen GenFacts Spec Fr FrSpec FrFacts3 X86 X86Gen X86Sim X86Call X86Routines X86RawFacts X86T X86TSpec X86TFacts X86TInv X86TConv X86TFinal X86TAdd X86TFinal2 X86TShift2.
Import ListNotations.
Open Scope Z_scope.
(** bytes of stack below the return address: with three temporary elements *)
Definition D3 (n : nat) (opt : bool) : Z := stackBytes n opt + 24 * Z.of_nat (S n) + 160.
Section F.
Variable q : Z.
Variable P : zq.
Hypothesis OK : zq_ok q P.
Notation n := (p_n64 P).
Notation opt := (p_opt P).
Notation bl := (p_bits P).
Variable lay : sym -> Z.
Variable ra : Z.
Hypothesis Hra : 0 <= ra < B.
Variable m : mach.
Hypothesis HQ : 2 ^ 32 < q.
Hypothesis HB : bl < 2 ^ 31.
Hypothesis N12 : neededFor n opt <> 12%nat.
Hypothesis N7 : n <> 7%nat.
Notation D := (D3 n opt).
Hypothesis Rdy : xready P lay D m.
Notation pr := (regs m RDI).
Hypothesis Dst : xdest P lay D m pr.
Variables a b : Z.
Hypothesis Aa : xarg q n D m pr (regs m RSI) a.
Hypothesis Ab : xarg q n D m pr (regs m RDX) b.
Lemma HD : stackBytes n opt + 24 * Z.of_nat (S n) + 160 <= D. Proof. unfold D3. lia. Qed.
Notation Rs := (Res P m D pr).
Notation vR := (valRes q P).
Notation dshl := (do_shl lay ra n opt bl).
Notation dshr := (do_shr lay ra n opt bl).
Notation tw := (tw lay ra).
Notation rest := (dshl ++ dshr ++ setzero).
Definition cShl := shl_code P lay ra (dshr ++ setzero).
Definition cShr := shr_code P lay ra setzero.
Lemma shl_is : dshl ++ dshr ++ setzero = lab 90 :: cShl. Proof. reflexivity. Qed.
Lemma shr_is : dshr ++ setzero = lab 94 :: cShr. Proof. reflexivity. Qed.
Lemma ok_c c : okc P c -> c mod 8 = 0 /\ 32 <= c /\ c + 2 * (8 * Z.of_nat (S n)) + 32 + stackBytes n opt <= D.
Proof. unfold D3. intros [->| ->]; (split; [|split; lia]); [reflexivity|]. rewrite (Z.mul_comm 8), Z.mod_add by lia. reflexivity. Qed.
Lemma W_shl j c m' : 0 <= j < bl -> okc P c -> At m D pr (regs m RSI) j c m' -> tw rest (Rs (vR (shl_val q a j))) (m', Some 90%nat).
Proof.
  intros Hj Hc A. destruct (ok_c c Hc) as (C1 & C2 & C3). destruct Aa as ((s1 & t1 & l1 & F1 & V1) & O1 & S1). rewrite shl_is. apply t_hit. unfold shl_val. rewrite <- (bits_eq q P OK).
  apply (D_shl q P OK lay ra Hra m D HD Rdy pr Dst eq_refl HQ HB N12 N7 _ s1 t1 l1 a F1 V1 O1 S1 j Hj c C1 C2 C3 (dshr ++ setzero)); [reflexivity| |exact A].
  apply (after_app 99%nat dshr); reflexivity.
Qed.
Lemma W_shr j c m' : 0 <= j < bl -> okc P c -> At m D pr (regs m RSI) j c m' -> tw rest (Rs (vR (shr_val a j))) (m', Some 94%nat).
Proof.
  intros Hj Hc A. destruct (ok_c c Hc) as (C1 & C2 & C3). destruct Aa as ((s1 & t1 & l1 & F1 & V1) & O1 & S1). apply t_over; [reflexivity|]. rewrite shr_is. apply t_hit.
  apply (D_shr q P OK lay ra Hra m D HD Rdy pr Dst eq_refl HQ HB N12 N7 _ s1 t1 l1 a F1 V1 O1 S1 j Hj c C1 C2 C3 setzero); [reflexivity|reflexivity|exact A].
Qed.
Lemma W_zero c m' : okc P c -> FS4 m D pr 0 c m' -> tw rest (Rs (vR 0)) (m', Some 99%nat).
Proof.
  intros Hc A. apply t_over; [reflexivity|]. apply t_over; [reflexivity|]. unfold setzero. cbn [app]. apply t_hit. apply (r_zero q P OK lay ra Hra m D HD Rdy pr Dst) with (c := c) (rest := []); try assumption; try reflexivity.
Qed.
Lemma F_shift (up : bool) : let lp := if up then 90%nat else 94%nat in let ln := if up then 94%nat else 90%nat in
  exists m', tcall lay ra (asm_shift lay ra n opt bl lp ln) m = Some m' /\
    xyields q n D pr (if up then shift_val q (shl_val q) shr_val a b else shift_val q shr_val (shl_val q) a b) m m'.
Proof.
  intros lp ln. set (v := if up then _ else _). pose proof Ab as ((s2 & t2 & l2 & F2 & V2) & O2 & S2). pose proof (v_range q P s2 t2 l2 b V2) as RB. pose proof (bits_eq q P OK) as BE.
  destruct (X86TAdd.t_call P lay ra m D pr (vR v) (tcall lay ra (asm_shift lay ra n opt bl lp ln)) (asm_shift lay ra n opt bl lp ln)) as (m' & L & E & RS & C); [|reflexivity|exists m'; split; [exact E|]; exact (yields_of q P m _ _ _ _ _ RS C)].
  unfold asm_shift. apply (b_enter4 P lay ra m D HD Rdy pr Dst eq_refl). intros m1 FS KR _.
  apply (P_parse q P OK lay ra Hra m D HD Rdy pr Dst HQ HB N12 N7 (regs m RSI) (regs m RDX) s2 t2 l2 b F2 V2 O2 S2 lp ln rest).
  - intros x Hx. cbn [In] in Hx. unfold lp. destruct up; intuition (subst; reflexivity).
  - intros x Hx. cbn [In] in Hx. unfold ln. destruct up; intuition (subst; reflexivity).
  - intros H c m' Hc A. unfold v, shift_val. rewrite <- BE. destruct (Z.ltb_spec b bl); [|lia]. unfold lp. destruct up; [apply (W_shl b c)|apply (W_shr b c)]; try assumption; lia.
  - intros H1 H2 c m' Hc A. unfold v, shift_val. rewrite <- BE. destruct (Z.ltb_spec b bl); [lia|]. destruct (Z.ltb_spec (q - b) bl); [|lia]. unfold ln. destruct up; [apply (W_shr (q - b) c)|apply (W_shl (q - b) c)]; try assumption; lia.
  - intros H1 H2 c m' Hc A. unfold v, shift_val. rewrite <- BE. destruct (Z.ltb_spec b bl); [lia|]. destruct (Z.ltb_spec (q - b) bl); [lia|]. destruct up; apply (W_zero c); assumption.
  - exact FS.
  - apply KR; discriminate.
  - apply KR; discriminate.
Qed.
End F.
