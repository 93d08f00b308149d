(** The tagged multiplication and squaring on the machine. *)
From Coq Require Import ZArith Znumtheory List Bool Arith Lia.
From Verif Require Import Limbs LimbsFacts Gen GenFacts Spec Raw RawFacts Fr FrSpec X86 X86Gen X86Sim X86Mont X86Call X86Routines X86Raw X86RawFacts X86RawFacts2 X86RawFacts3 X86Final X86T X86TWords X86TFacts X86THelp X86THelp2 X86THelp3 X86TSpec X86TInv X86TConv.
Import ListNotations.
Open Scope Z_scope.

Ltac nin' := cbn [In]; let H := fresh in intros H; repeat destruct H as [H|H]; try discriminate H; contradiction H.

Ltac modr := rewrite <- ?Z.mul_assoc; rewrite ?Z.mul_mod_idemp_l, ?Z.mul_mod_idemp_r by lia; f_equal; ring.

Section Op.
Variable q : Z.
Variable P : zq.
Hypothesis OK : zq_ok q P.
Notation n := (p_n64 P).
Notation opt := (p_opt P).
Notation sb := (stackBytes n opt).
Variable lay : sym -> Z.
Variable ra : Z.
Hypothesis Hra : 0 <= ra < B.
Variable m0 : mach.
Variable D : Z.
Hypothesis HD : 16 + sb <= D.
Hypothesis Rdy : xready P lay D m0.
Notation sp0 := (regs m0 RSP).
Variable pr : Z.
Hypothesis Dst : xdest P lay D m0 pr.
Hypothesis Edi : regs m0 RDI = pr.
Notation K := (S n).
Notation R := (Rad n).
Lemma D_pos : 0 <= D. Proof. pose proof (sb_pos P). lia. Qed.
Notation Inv := (Inv m0 D pr).
Notation St := (St m0 D pr).
Notation Post := (Post P m0 D pr).
Notation Opr := (Opr P lay m0 D pr Dst).
Notation Bpr := (Bpr P lay m0 D pr Dst).
Notation s_mul := (s_mul q P OK lay ra Hra m0 D Rdy pr Dst).
Notation s_mul1 := (s_mul1 q P OK lay ra Hra m0 D Rdy pr Dst).
Notation s_square := (s_square q P OK lay ra Hra m0 D Rdy pr Dst).
Notation s_neg := (s_neg q P OK lay ra Hra m0 D Rdy pr Dst).
Notation s_copyS2L := (s_copyS2L q P OK lay ra Hra m0 D Rdy pr Dst).
Notation s_data := (s_data P lay m0 D Rdy pr Dst).
Notation inv_head := (inv_head P lay m0 D pr Dst).
Ltac inv1 := first [assumption | apply inv_setf | apply inv_setr; [|try lia|nin'] | apply inv_head; [lia| |try lia] | apply (inv_stk m0 D pr K Opr Bpr); [|try lia|try lia] ].
Ltac inv := repeat inv1.
Ltac stt H := let H1 := fresh in let H2 := fresh in let H3 := fresh in let H4 := fresh in pose proof H as (H1 & H2 & H3 & H4); split; [inv|split; [rg; try lia|split; [rg; try lia|rg; try assumption]]].
Definition Res (Q : list Z -> Prop) (s : X86RawFacts.st) : Prop := snd s = Some l_ret /\ regs (fst s) RSP = sp0 /\ mem (fst s) sp0 = mem m0 sp0 /\ exists L, Q L /\ Cres D K pr L m0 (setr (fst s) RSP ((sp0 + 8) mod B)).
Lemma finishR (Q : list Z -> Prop) code m L : St K 0 pr (regs m0 RBP) m -> at_addr m pr L -> tnolab l_ret code = true -> Q L -> tw lay ra (TRet :: code) (Res Q) (m, None).
Proof. intros H1 H2 H3 H4. apply (finish' P lay ra Hra m0 D D_pos pr Dst) with (L := L); assumption. Qed.
Lemma t_call (Q : list Z -> Prop) f code : tw lay ra code (Res Q) (m0, None) -> f = tcall lay ra code -> exists m' L, f m0 = Some m' /\ Q L /\ Cres D K pr L m0 m'.
Proof. apply (t_finish P). Qed.
Let bp := regs m0 RBP.
(** *** blocks *)
Section Blocks.
Variable Q : X86RawFacts.st -> Prop.
Variable m : mach.
Variable rest : list tinstr.
Definition BPost (w : Z) (l : list Z) (m' : mach) : Prop := St K 0 pr bp m' /\ at_addr m' (pr + 8) l /\ mem m' pr = w.
Lemma b_setType t : In t [64; 128; 192] -> St 1 0 pr bp m ->
  (forall m', St 1 0 pr bp m' -> mem m' pr = word_of (sx32 (mem m pr)) (t * 2 ^ 24) -> (forall r, r <> R11 -> regs m' r = regs m r) -> (forall x, x <> pr -> mem m' x = mem m x) -> tw lay ra rest Q (m', None)) -> tw lay ra (setTypeDest t ++ rest) Q (m, None).
Proof.
  intros Ht ST H. pose proof (pr_facts q P OK lay m0 D pr Dst) as (P1 & P2 & P3). apply t_setType with (p := pr); [exact Ht|apply ST|exact P2| |apply (st_range _ _ _ _ _ _ _ _ _ ST)].
  intros x f Hx Hx2. pose proof (Z.mod_pos_bound (mem m pr) W32 ltac:(reflexivity)) as Hw.
  assert (T2 : 64 <= t <= 192) by (cbn [In] in Ht; lia). assert (EB : B = W32 * W32) by reflexivity. assert (0 <= t * 2 ^ 24 * W32 /\ t * 2 ^ 24 * W32 + W32 <= B) by (rewrite EB; unfold W32 in *; lia).
  apply H.
  - stt ST.
  - rg. rewrite mupd_eq. unfold word_of. rewrite sx32_back. reflexivity.
  - intros r Hr. cbn [setm setf setr regs]. rewrite !rupd_neq by exact Hr. reflexivity.
  - intros y Hy. rg. apply mupd_neq, Hy.
Qed.
Section LL.
Variables pa pb : Z.
Variables a b : list Z.
Hypothesis Ea : regs m RSI = pa.
Hypothesis Eb : regs m RDX = pb.
Hypothesis Ra : 0 <= pa /\ pa + 8 < B.
Hypothesis Rb : 0 <= pb /\ pb + 8 < B.
Hypothesis ST : St 1 0 pr bp m.
Hypothesis Ha : limbs_ok n a.
Hypothesis Hb : limbs_ok n b.
Hypothesis Aa : arr m (8 + sb) (pa + 8) a.
Hypothesis Ab : arr m (8 + sb) (pb + 8) b.
Lemma arr_ext m1 m2 S p l : (forall x, mem m2 x = mem m1 x) -> regs m2 RSP = regs m1 RSP -> arr m1 S p l -> arr m2 S p l.
Proof. intros H1 H2 [A O]. split; [eapply at_ext; [|exact A]; intros; apply H1|rewrite H2; exact O]. Qed.
Lemma b_mulLL : eval b < q -> (forall m' l, limbs_ok n l -> eval l < q -> (eval l * R) mod q = (eval a * eval b) mod q -> BPost (mem m pr) l m' -> tw lay ra rest Q (m', None)) -> tw lay ra (mulL1L2 lay n opt ++ rest) Q (m, None).
Proof.
  intros Hq H. pose proof (pr_facts q P OK lay m0 D pr Dst) as (P1 & P2 & P3). pose proof (sb_pos P) as SB. pose proof ST as (_ & _ & ED & _). unfold mulL1L2. cbn [app]. apply t_addi; [rewrite ED; lia|]. intros f1. rg. rewrite ED. apply t_addi; [rg; rewrite Ea; lia|]. intros f2. rg. rewrite Ea. apply t_addi; [rg; rewrite Eb; lia|]. intros f3. rg. rewrite Eb. set (m1 := setf _ f3).
  assert (ST1 : St 1 0 (pr + 8) bp m1) by (unfold m1; stt ST).
  eapply (s_mul 1 0 bp) with (a := a) (b := b); [lia|reflexivity|lia|exact ST1|lia|exact Ha|exact Hb|apply (arr_ext m); [reflexivity|reflexivity|exact Aa]|apply (arr_ext m); [reflexivity|reflexivity|exact Ab]|exact Hq|].
  intros m2 l2 L1 L2 L3 (ST2 & AT & HH & _). apply t_subi; [destruct ST2 as (_ & _ & -> & _); lia|]. intros f4. apply t_subi_any. intros x f5 Hx. apply (H _ l2); [exact L1|exact L2|rewrite <- L3, (Rad_B P); reflexivity|]. split; [stt ST2|]. split; [eapply at_ext; [|exact AT]; intros; reflexivity|]. rg. apply HH. reflexivity.
Qed.
Lemma b_square : eval a < q -> (forall m' l, limbs_ok n l -> eval l < q -> (eval l * R) mod q = (eval a * eval a) mod q -> BPost (mem m pr) l m' -> tw lay ra rest Q (m', None)) -> tw lay ra (squareL1 lay n opt ++ rest) Q (m, None).
Proof.
  clear Eb Rb Hb Ab. intros Hq H. pose proof (pr_facts q P OK lay m0 D pr Dst) as (P1 & P2 & P3). pose proof (sb_pos P) as SB. pose proof ST as (_ & _ & ED & _). unfold squareL1. cbn [app]. apply t_addi; [rewrite ED; lia|]. intros f1. rg. rewrite ED. apply t_addi; [rg; rewrite Ea; lia|]. intros f2. rg. rewrite Ea. set (m1 := setf _ f2).
  assert (ST1 : St 1 0 (pr + 8) bp m1) by (unfold m1; stt ST).
  eapply (s_square 1 0 bp) with (a := a); [lia|reflexivity|lia|exact ST1|lia|exact Ha|apply (arr_ext m); [reflexivity|reflexivity|exact Aa]|exact Hq|].
  intros m2 l2 L1 L2 L3 (ST2 & AT & HH & _). apply t_subi; [destruct ST2 as (_ & _ & -> & _); lia|]. intros f4. apply t_subi_any. intros x f5 Hx. apply (H _ l2); [exact L1|exact L2|rewrite <- L3, (Rad_B P); reflexivity|]. split; [stt ST2|]. split; [eapply at_ext; [|exact AT]; intros; reflexivity|]. rg. apply HH. reflexivity.
Qed.
End LL.
Lemma b_mulR3 w l : BPost w l m -> limbs_ok n l -> eval l < q -> (forall m' l', limbs_ok n l' -> eval l' = (eval l * R * R) mod q -> BPost w l' m' -> tw lay ra rest Q (m', None)) -> tw lay ra (mulR3 lay n opt ++ rest) Q (m, None).
Proof.
  intros (ST & AT & HW) Hl Hq H. pose proof (pr_facts q P OK lay m0 D pr Dst) as (P1 & P2 & P3). pose proof (sb_pos P) as SB. pose proof ST as (_ & SP & ED & _). destruct (R3_fact q P OK) as (RA & RB & RC). pose proof (sym_range P lay m0 D Rdy SR3 (R3_data q P OK)) as RR. pose proof (sp0_top P lay m0 D Rdy) as TOP. pose proof (xr_room _ _ _ _ Rdy) as RM. pose proof (q_pos q P OK) as Q1. pose proof Opr as OP.
  pose proof (st_range _ _ _ _ _ _ _ _ RSI ST) as RSr.
  unfold mulR3. cbn [app]. apply t_push; [rewrite SP; apply (sp_al P lay m0 D Rdy); reflexivity|lia|]. apply t_addi; [rg; rewrite ED; lia|]. intros f1. rg. rewrite ED. apply t_mov. rg. eapply t_lea; [apply (lea_sym P lay m0 D Rdy), (R3_data q P OK)|]. set (m1 := setr _ RDX _).
  assert (ST1 : St K 8 (pr + 8) bp m1) by (unfold m1; stt ST).
  eapply (s_mul K 8 bp) with (a := l) (b := p_R3 P); [lia|reflexivity|lia|exact ST1|lia|exact Hl|exact RA| |apply (s_data K 8 (pr + 8) bp m1 SR3 (8 + sb) ST1); [lia|reflexivity|lia|lia|lia]|exact RC|].
  - split; [unfold m1; rg; eapply at_ext; [|exact AT]; intros x Hx; rg; apply mupd_neq; rewrite (proj1 Hl) in Hx; lia|]. destruct ST1 as (_ & -> & _). unfold m1; rg. rewrite (proj1 Hl). lia.
  - intros m2 l2 L1 L2 L3 (ST2 & AT2 & HH & _). specialize (HH eq_refl). pose proof ST2 as (_ & SP2 & _). apply t_subi; [destruct ST2 as (_ & _ & -> & _); lia|]. intros f4. pose proof (st_mrange _ _ _ _ _ _ _ _ (regs m2 RSP) ST2) as MR.
    apply t_pop; [rg; rewrite SP2; apply (sp_al P lay m0 D Rdy); reflexivity|rg; lia|rg; lia|]. rg. apply (H _ l2); [exact L1| |].
    + apply (mont_val q P OK); [exact L1|exact L2|]. rewrite L3, RB, Z.mul_mod_idemp_r by lia. f_equal. ring.
    + split; [stt ST2|]. split; [eapply at_ext; [|exact AT2]; intros; reflexivity|]. rg. rewrite HH. unfold m1. rg. rewrite mupd_neq by lia. exact HW.
Qed.
(** the limb array times the signed word *)
Definition tailS (l0 done : nat) : list tinstr := [addi RDI 8; CmpJ true RDX (OImm 0) Cns l0; Neg64 RDX; Callf (f_rawMMul1 lay n opt); mov RSI RDI; Callf (f_rawNeg lay n); subi RDI 8; pop RSI; jmp done;
   lab l0; Callf (f_rawMMul1 lay n opt); subi RDI 8; pop RSI; lab done].
Lemma b_tailS l0 done s a : Nat.eqb done l0 = false -> neededFor n opt <> 12%nat -> is_int32 s -> St 1 8 pr bp m -> regs m RDX = s mod B -> limbs_ok n a -> eval a < q -> arr m (8 + sb) (regs m RSI) a ->
  (forall m' l, limbs_ok n l -> eval l < q -> (eval l * R) mod q = (s * eval a) mod q -> BPost (mem m pr) l m' -> tw lay ra rest Q (m', None)) -> tw lay ra (tailS l0 done ++ rest) Q (m, None).
Proof.
  intros NE N12 Hs ST ER Ha Hq Aa H. pose proof (pr_facts q P OK lay m0 D pr Dst) as (P1 & P2 & P3). pose proof (sb_pos P) as SB. pose proof ST as (_ & SP & ED & _). pose proof (sp0_top P lay m0 D Rdy) as TOP. pose proof (xr_room _ _ _ _ Rdy) as RM. pose proof (q_pos q P OK) as Q1. pose proof Opr as OP.
  unfold tailS. cbn [app]. apply t_addi; [rewrite ED; lia|]. intros f1. rg. rewrite ED. eapply t_cmpj; [reflexivity|reflexivity| |]; rg; rewrite ER; change (0 mod B) with 0; rewrite (scond_ns s Hs); intros f2 HS.
  - assert (S0 : 0 <= s) by (destruct (Z.ltb_spec s 0); [discriminate|assumption]). eapply t_after; [cbn [after lab addi subi pop push jmp mov]; rewrite Nat.eqb_refl; reflexivity|]. set (m1 := setf _ f2). assert (ST1 : St 1 8 (pr + 8) bp m1) by (unfold m1; stt ST).
    eapply (s_mul1 1 8 bp) with (a := a); [lia|reflexivity|lia|exact ST1|exact N12|lia|exact Ha|apply (arr_ext m); [reflexivity|reflexivity|exact Aa]|exact Hq|].
    intros m2 l2 L1 L2 L3 (ST2 & AT & HH & _). specialize (HH eq_refl). pose proof ST2 as (_ & SP2 & _). apply t_subi; [destruct ST2 as (_ & _ & -> & _); lia|]. intros f4. pose proof (st_mrange _ _ _ _ _ _ _ _ (regs m2 RSP) ST2) as MR. apply t_pop; [rg; rewrite SP2; apply (sp_al P lay m0 D Rdy); reflexivity|rg; lia|rg; lia|]. rg. apply t_lab. apply (H _ l2); [exact L1|exact L2| |].
    + rewrite <- (Rad_B P) in L3. rewrite L3. unfold m1. rg. rewrite ER, (Z.mod_small s B); [reflexivity|]. unfold is_int32 in Hs. assert (B = 2 ^ 64) by reflexivity. lia.
    + split; [stt ST2|]. split; [eapply at_ext; [|exact AT]; intros; reflexivity|]. rg. exact HH.
  - assert (S0 : s < 0) by (destruct (Z.ltb_spec s 0); [assumption|discriminate]). apply t_neg64. intros f3. rg. rewrite ER, (neg_B s Hs S0). set (m1 := setf _ f3). assert (BB : B = 2 ^ 64) by reflexivity. unfold is_int32 in Hs. assert (ST1 : St 1 8 (pr + 8) bp m1) by (unfold m1; stt ST).
    eapply (s_mul1 1 8 bp) with (a := a); [lia|reflexivity|lia|exact ST1|exact N12|lia|exact Ha|apply (arr_ext m); [reflexivity|reflexivity|exact Aa]|exact Hq|].
    intros m2 l2 L1 L2 L3 (ST2 & AT & HH & _). specialize (HH eq_refl). pose proof ST2 as (_ & SP2 & ED2 & _). apply t_mov. rewrite ED2. set (m3 := setr m2 RSI _). assert (ST3 : St K 8 (pr + 8) bp m3) by (unfold m3; stt ST2).
    eapply (s_neg K 8 bp) with (a := l2); [lia|reflexivity|lia|exact ST3|lia|exact L1|exact L2| |unfold m3; rg; left; reflexivity|].
    { split; [unfold m3; rg; exact AT|]. unfold m3; rg. rewrite SP2, (proj1 L1). lia. }
    intros m4 l4 L4 L5 (ST4 & AT4 & HH4 & _). specialize (HH4 eq_refl). pose proof ST4 as (_ & SP4 & _). apply t_subi; [destruct ST4 as (_ & _ & -> & _); lia|]. intros f4. pose proof (st_mrange _ _ _ _ _ _ _ _ (regs m4 RSP) ST4) as MR. apply t_pop; [rg; rewrite SP4; apply (sp_al P lay m0 D Rdy); reflexivity|rg; lia|rg; lia|]. rg. apply t_jmp. eapply t_after; [cbn [after lab addi subi pop push jmp mov]; rewrite NE, Nat.eqb_refl; reflexivity|]. apply (H _ l4); [exact L4| | |].
    + rewrite L5. apply Z.mod_pos_bound. lia.
    + rewrite <- (Rad_B P) in L3. rewrite L5, Z.mul_mod_idemp_l by lia. replace (- eval l2 * R) with (- (eval l2 * R)) by ring. rewrite <- opp_mod, L3, opp_mod. unfold m1. rg. f_equal. ring.
    + split; [stt ST4|]. split; [eapply at_ext; [|exact AT4]; intros; reflexivity|]. rg. rewrite HH4. unfold m3. rg. exact HH.
Qed.
End Blocks.
Notation valRes := (valRes q P).
Section R.
Variable w : Z.
Hypothesis Rw : 0 <= w < q.
Definition goalR (t X : Z) : Prop := (t = 128 /\ X mod q = (w * R) mod q) \/ (t = 192 /\ X mod q = (w * R * R) mod q).
Lemma r_end t m s0 l code : BPost (word_of s0 (t * 2 ^ 24)) l m -> is_int32 s0 -> limbs_ok n l -> eval l < q -> goalR t (eval l * R) -> tnolab l_ret code = true -> tw lay ra (TRet :: code) (Res (valRes w)) (m, None).
Proof.
  intros (ST & AT & HW) Hs Hl Hq HG HL. pose proof (pr_facts q P OK lay m0 D pr Dst) as (P1 & P2 & P3). apply finishR with (L := word_of s0 (t * 2 ^ 24) :: l); [exact ST|apply at_cons; assumption|exact HL|].
  destruct HG as [[-> HG] | [-> HG]].
  - apply long_val; [exact Hs|exact Hl| |exact Rw]. rewrite <- (Z.mod_small w q Rw). apply (mont_val q P OK); [exact Hl|exact Hq|rewrite <- (Rad_B P); exact HG].
  - apply mont_valR; [exact Hs|exact Hl| |exact Rw]. apply (mont_val q P OK); [exact Hl|exact Hq|rewrite <- (Rad_B P); exact HG].
Qed.
Lemma r_R3 m s0 l code : BPost (word_of s0 (192 * 2 ^ 24)) l m -> is_int32 s0 -> limbs_ok n l -> eval l < q -> (eval l * R) mod q = w -> tnolab l_ret code = true -> tw lay ra (mulR3 lay n opt ++ TRet :: code) (Res (valRes w)) (m, None).
Proof.
  intros BP Hs Hl Hq HG HL. pose proof (q_pos q P OK) as Q1. apply b_mulR3 with (w := word_of s0 (192 * 2 ^ 24)) (l := l); [exact BP|exact Hl|exact Hq|]. intros m2 l2 L1 L2 BP2. apply (r_end 192 m2 s0 l2); [exact BP2|exact Hs|exact L1|rewrite L2; apply Z.mod_pos_bound; lia| |exact HL].
  right. split; [reflexivity|]. rewrite L2, Z.mul_mod_idemp_l by lia. rewrite <- HG. rewrite <- (Z.mul_assoc (_ mod q)), Z.mul_mod_idemp_l by lia. f_equal. ring.
Qed.
(** operands *)
Definition argok (p : Z) (l : list Z) : Prop := 0 <= p /\ p + 16 <= B /\ limbs_ok n l /\ forall m c, Inv 1 m -> regs m RSP = sp0 - c -> 0 <= c -> c + (8 + sb) <= D -> arr m (8 + sb) (p + 8) l.
Section Args.
Variable m : mach.
Hypothesis ST : St 1 0 pr bp m.
Variables pa pb : Z.
Variables a b : list Z.
Hypothesis Aa : argok pa a.
Hypothesis Ab : argok pb b.
Lemma goal_t t X : goalR t X -> In t [64; 128; 192].
Proof. intros [[-> _] | [-> _]]; cbn [In]; tauto. Qed.
Lemma r_LL t code : regs m RSI = pa -> regs m RDX = pb -> eval b < q -> goalR t (eval a * eval b) -> tnolab l_ret code = true -> tw lay ra (setTypeDest t ++ mulL1L2 lay n opt ++ TRet :: code) (Res (valRes w)) (m, None).
Proof.
  intros E1 E2 Hq HG HL. destruct Aa as (A1 & A2 & A3 & A4). destruct Ab as (B1 & B2 & B3 & B4). apply b_setType; [exact (goal_t _ _ HG)|exact ST|]. intros m2 ST2 M2 R2 _. pose proof ST2 as (I2 & SP2 & _). pose proof (sb_pos P).
  apply b_mulLL with (pa := pa) (pb := pb) (a := a) (b := b); [rewrite R2 by discriminate; exact E1|rewrite R2 by discriminate; exact E2|lia|lia|exact ST2|exact A3|exact B3|apply (A4 m2 0); [exact I2|exact SP2|lia|lia]|apply (B4 m2 0); [exact I2|exact SP2|lia|lia]|exact Hq|].
  intros m3 l L1 L2 L3 BP. rewrite M2 in BP. eapply r_end; [exact BP|apply sx32_range|exact L1|exact L2| |exact HL]. unfold goalR in *. rewrite L3. exact HG.
Qed.
Lemma r_LL3 code : regs m RSI = pa -> regs m RDX = pb -> eval b < q -> (eval a * eval b) mod q = w -> tnolab l_ret code = true -> tw lay ra (setTypeDest 192 ++ mulL1L2 lay n opt ++ mulR3 lay n opt ++ TRet :: code) (Res (valRes w)) (m, None).
Proof.
  intros E1 E2 Hq HG HL. destruct Aa as (A1 & A2 & A3 & A4). destruct Ab as (B1 & B2 & B3 & B4). apply b_setType; [cbn; tauto|exact ST|]. intros m2 ST2 M2 R2 _. pose proof ST2 as (I2 & SP2 & _). pose proof (sb_pos P).
  apply b_mulLL with (pa := pa) (pb := pb) (a := a) (b := b); [rewrite R2 by discriminate; exact E1|rewrite R2 by discriminate; exact E2|lia|lia|exact ST2|exact A3|exact B3|apply (A4 m2 0); [exact I2|exact SP2|lia|lia]|apply (B4 m2 0); [exact I2|exact SP2|lia|lia]|exact Hq|].
  intros m3 l L1 L2 L3 BP. rewrite M2 in BP. eapply r_R3; [exact BP|apply sx32_range|exact L1|exact L2| |exact HL]. rewrite L3. exact HG.
Qed.
Lemma r_sq t code : regs m RSI = pa -> eval a < q -> goalR t (eval a * eval a) -> tnolab l_ret code = true -> tw lay ra (setTypeDest t ++ squareL1 lay n opt ++ TRet :: code) (Res (valRes w)) (m, None).
Proof.
  intros E1 Hq HG HL. destruct Aa as (A1 & A2 & A3 & A4). apply b_setType; [exact (goal_t _ _ HG)|exact ST|]. intros m2 ST2 M2 R2 _. pose proof ST2 as (I2 & SP2 & _). pose proof (sb_pos P).
  apply b_square with (pa := pa) (a := a); [rewrite R2 by discriminate; exact E1|lia|exact ST2|exact A3|apply (A4 m2 0); [exact I2|exact SP2|lia|lia]|exact Hq|].
  intros m3 l L1 L2 L3 BP. rewrite M2 in BP. eapply r_end; [exact BP|apply sx32_range|exact L1|exact L2| |exact HL]. unfold goalR in *. rewrite L3. exact HG.
Qed.
Lemma r_sq3 code : regs m RSI = pa -> eval a < q -> (eval a * eval a) mod q = w -> tnolab l_ret code = true -> tw lay ra (setTypeDest 192 ++ squareL1 lay n opt ++ mulR3 lay n opt ++ TRet :: code) (Res (valRes w)) (m, None).
Proof.
  intros E1 Hq HG HL. destruct Aa as (A1 & A2 & A3 & A4). apply b_setType; [cbn; tauto|exact ST|]. intros m2 ST2 M2 R2 _. pose proof ST2 as (I2 & SP2 & _). pose proof (sb_pos P).
  apply b_square with (pa := pa) (a := a); [rewrite R2 by discriminate; exact E1|lia|exact ST2|exact A3|apply (A4 m2 0); [exact I2|exact SP2|lia|lia]|exact Hq|].
  intros m3 l L1 L2 L3 BP. rewrite M2 in BP. eapply r_R3; [exact BP|apply sx32_range|exact L1|exact L2| |exact HL]. rewrite L3. exact HG.
Qed.
(** a limb array at the source [p] and a short value in the register [r] *)
Section S1.
Variable load : list tinstr.
Variable s : Z.
Hypothesis N12 : neededFor n opt <> 12%nat.
Hypothesis Hs : is_int32 s.
Hypothesis Hl : forall m2 Q rest, St 1 8 pr bp m2 -> (forall r, r <> R11 -> r <> RSP -> regs m2 r = regs m r) ->
  (forall m3, St 1 8 pr bp m3 -> regs m3 RSI = pa + 8 -> regs m3 RDX = s mod B -> (forall x, mem m3 x = mem m2 x) -> tw lay ra rest Q (m3, None)) -> tw lay ra (load ++ rest) Q (m2, None).
Lemma b_S1 l0 done Q rest t : In t [64; 128; 192] -> Nat.eqb done l0 = false -> eval a < q ->
  (forall m' l, limbs_ok n l -> eval l < q -> (eval l * R) mod q = (s * eval a) mod q -> BPost (word_of (sx32 (mem m pr)) (t * 2 ^ 24)) l m' -> tw lay ra rest Q (m', None)) ->
  tw lay ra (setTypeDest t ++ mulS1 lay n opt load l0 done ++ rest) Q (m, None).
Proof.
  intros Ht NE Hq H. destruct Aa as (A1 & A2 & A3 & A4). apply b_setType; [exact Ht|exact ST|]. intros m2 ST2 M2 R2 _. pose proof ST2 as (I2 & SP2 & _). pose proof (sb_pos P) as SB. pose proof (sp0_top P lay m0 D Rdy) as TOP. pose proof (xr_room _ _ _ _ Rdy) as RM. pose proof Opr as OP. pose proof (st_range _ _ _ _ _ _ _ _ RSI ST2) as RSr.
  unfold mulS1. cbn [app]. rewrite <- app_assoc. apply t_push; [rewrite SP2; apply (sp_al P lay m0 D Rdy); reflexivity|lia|]. set (m3 := setr _ RSP _). assert (ST3 : St 1 8 pr bp m3) by (unfold m3; stt ST2).
  apply Hl; [exact ST3| |].
  - intros r N1 N2. unfold m3. cbn [setr setm regs]. rewrite rupd_neq by exact N2. apply R2, N1.
  - intros m4 ST4 E1 E2 M4. pose proof ST4 as (I4 & SP4 & _). apply (b_tailS Q m4 rest l0 done s a); [exact NE|exact N12|exact Hs|exact ST4|exact E2|exact A3|exact Hq|rewrite E1; apply (A4 m4 8); [exact I4|exact SP4|lia|lia]|].
    intros m5 l L1 L2 L3 BP. apply (H m5 l L1 L2 L3). rewrite <- M2. replace (mem m2 pr) with (mem m4 pr); [exact BP|]. rewrite M4. unfold m3. rg. apply mupd_neq. lia.
Qed.
Lemma r_S1 t l0 done code : Nat.eqb done l0 = false -> eval a < q -> goalR t (s * eval a) -> tnolab l_ret code = true -> tw lay ra (setTypeDest t ++ mulS1 lay n opt load l0 done ++ TRet :: code) (Res (valRes w)) (m, None).
Proof. intros NE Hq HG HL. apply b_S1; [exact (goal_t _ _ HG)|exact NE|exact Hq|]. intros m3 l L1 L2 L3 BP. eapply r_end; [exact BP|apply sx32_range|exact L1|exact L2| |exact HL]. unfold goalR in *. rewrite L3. exact HG. Qed.
Lemma r_S13 l0 done code : Nat.eqb done l0 = false -> eval a < q -> (s * eval a) mod q = w -> tnolab l_ret code = true -> tw lay ra (setTypeDest 192 ++ mulS1 lay n opt load l0 done ++ mulR3 lay n opt ++ TRet :: code) (Res (valRes w)) (m, None).
Proof. intros NE Hq HG HL. apply b_S1; [cbn; tauto|exact NE|exact Hq|]. intros m3 l L1 L2 L3 BP. eapply r_R3; [exact BP|apply sx32_range|exact L1|exact L2| |exact HL]. rewrite L3. exact HG. Qed.
End S1.
Lemma load_LS s t : is_int32 s -> regs m RSI = pa -> regs m R9 = word_of s t -> forall m2 Q rest, St 1 8 pr bp m2 -> (forall r, r <> R11 -> r <> RSP -> regs m2 r = regs m r) ->
  (forall m3, St 1 8 pr bp m3 -> regs m3 RSI = pa + 8 -> regs m3 RDX = s mod B -> (forall x, mem m3 x = mem m2 x) -> tw lay ra rest Q (m3, None)) -> tw lay ra ([addi RSI 8; Movsx RDX R9] ++ rest) Q (m2, None).
Proof.
  intros Hs E1 E2 m2 Q rest ST2 R2 H. destruct Aa as (A1 & A2 & A3 & A4). cbn [app]. apply t_addi; [rewrite R2, E1 by discriminate; lia|]. intros f. rewrite R2, E1 by discriminate. apply t_movsx. rg. rewrite R2, E2 by discriminate. rewrite sx32_word by exact Hs. pose proof (Z.mod_pos_bound s B ltac:(reflexivity)). apply H; [stt ST2|rg; reflexivity|rg; reflexivity|intros x; reflexivity].
Qed.
Lemma load_SL s t : is_int32 s -> regs m RDX = pa -> regs m R8 = word_of s t -> forall m2 Q rest, St 1 8 pr bp m2 -> (forall r, r <> R11 -> r <> RSP -> regs m2 r = regs m r) ->
  (forall m3, St 1 8 pr bp m3 -> regs m3 RSI = pa + 8 -> regs m3 RDX = s mod B -> (forall x, mem m3 x = mem m2 x) -> tw lay ra rest Q (m3, None)) -> tw lay ra ([Lea RSI (BReg RDX) 8; Movsx RDX R8] ++ rest) Q (m2, None).
Proof.
  intros Hs E1 E2 m2 Q rest ST2 R2 H. destruct Aa as (A1 & A2 & A3 & A4). cbn [app]. eapply t_lea; [unfold addr; rewrite R2, E1 by discriminate; apply Z.mod_small; lia|]. apply t_movsx. rg. rewrite R2, E2 by discriminate. rewrite sx32_word by exact Hs. pose proof (Z.mod_pos_bound s B ltac:(reflexivity)). apply H; [stt ST2|rg; reflexivity|rg; reflexivity|intros x; reflexivity].
Qed.
End Args.
End R.
(** the tail of the short cases *)
Lemma b_copyTail m x code : St 1 8 pr bp m -> regs m RAX = x mod B -> - (B / 2) <= x < B / 2 -> - q <= x < q -> tnolab l_ret code = true ->
  tw lay ra (mov RSI RAX :: Callf (f_rawCopyS2L lay ra n) :: pop RSI :: TRet :: code) (Res (valRes (x mod q))) (m, None).
Proof.
  intros ST E X1 X2 HL. pose proof (pr_facts q P OK lay m0 D pr Dst) as (P1 & P2 & P3). pose proof (sb_pos P) as SB. pose proof (sp0_top P lay m0 D Rdy) as TOP. pose proof (xr_room _ _ _ _ Rdy) as RM. pose proof (q_pos q P OK) as Q1. pose proof (Z.mod_pos_bound x B ltac:(reflexivity)).
  apply t_mov. rewrite E. set (m1 := setr _ RSI _). assert (ST1 : St 1 8 pr bp m1) by (unfold m1; stt ST).
  eapply (s_copyS2L 1 8 bp) with (x := x); [lia|reflexivity|lia|exact ST1|lia|unfold m1; rg; reflexivity|exact X1|exact X2|].
  intros m2 l2 L1 L2 (ST2 & AT & _ & _). pose proof ST2 as (_ & SP2 & _). apply t_pop; [rewrite SP2; apply (sp_al P lay m0 D Rdy); reflexivity|rewrite SP2; lia|rewrite SP2; lia|]. pose proof (st_mrange _ _ _ _ _ _ _ _ (regs m2 RSP) ST2) as MR.
  apply finishR with (L := word_of 0 LONG :: l2); [stt ST2|eapply at_ext; [|exact AT]; intros; reflexivity|exact HL|].
  apply long_val; [unfold is_int32; lia|exact L1|exact L2|apply Z.mod_pos_bound; lia].
Qed.
Lemma sx64_mod x : - (B / 2) <= x < B / 2 -> sx64 (x mod B) = x.
Proof. change (B / 2) with (2 ^ 63). intros H. unfold sx64. change (B / 2) with (2 ^ 63). assert (BB : B = 2 ^ 64) by reflexivity. destruct (Z.neg_nonneg_cases x); [rewrite <- (Z.mod_add x 1), Z.mod_small by lia|rewrite Z.mod_small by lia]; destruct (_ <? _) eqn:E; lia. Qed.
Lemma int32_prod s s' : is_int32 s -> is_int32 s' -> - 2 ^ 62 <= s * s' <= 2 ^ 62.
Proof. intros H1 H2. unfold is_int32 in *. nia. Qed.
Section Elts.
Variables pa sa ta : Z.
Variable la : list Z.
Variable va : Z.
Hypothesis Fa : xfields n m0 pa sa ta la.
Hypothesis Va : denotes q n sa ta la va.
Hypothesis Oa : xoff D m0 pa K.
Hypothesis Sa : pa = pr \/ xapart n pa pr.
Hypothesis Esi : regs m0 RSI = pa.
Hypothesis HQ : 2 ^ 62 < q.
Lemma a_arg : argok pa la.
Proof.
  pose proof (e_ptr q P OK m0 pa sa ta la Fa) as (A1 & A2 & A3). split; [exact A1|]. split; [exact A3|]. split; [apply Fa|]. intros m c H1 H2 H3 H4. pose proof (sb_pos P). eapply (e_arr P lay m0 D pr Dst pa sa ta la Fa Oa Sa 1 m _ c); [lia|exact H1|exact H2|exact H3|lia|exact H4].
Qed.
Notation TA := (e_type q P sa ta la va Va).
Notation st0 := (st0 P lay m0 D Rdy pr Dst Edi).
Notation vlongA := (v_long q P m0 pa sa ta la va Fa Va).
Notation vshortA := (v_short q P m0 pa sa ta la va Fa Va).
Notation vmontA := (v_mont q P m0 pa sa ta la va Fa Va).
Notation vlqA := (v_lq q P m0 pa sa ta la va Fa Va).
Lemma square_call : exists m' L, f_square lay ra n opt m0 = Some m' /\ valRes ((va * va) mod q) L /\ Cres D K pr L m0 m'.
Proof.
  apply t_call with (code := asm_squareT lay ra n opt); [|reflexivity]. pose proof (q_pos q P OK) as Q1. unfold asm_squareT. cbn [app]. pose proof a_arg as AA. pose proof AA as (A1 & A3 & _ & _). pose proof (e_ptr q P OK m0 pa sa ta la Fa) as (_ & A2 & _). pose proof (pr_facts q P OK lay m0 D pr Dst) as (P1 & P2 & P3). pose proof (st0 1%nat ltac:(lia)) as ST1. pose proof (word_range sa ta TA) as WR. pose proof (proj1 Fa) as IS. pose proof (sb_pos P) as SB. set (w := (va * va) mod q). assert (Rw : 0 <= w < q) by (apply Z.mod_pos_bound; lia).
  pose proof (sp0_top P lay m0 D Rdy) as TOP. pose proof (xr_room _ _ _ _ Rdy) as RM.
  apply (t_ld lay ra _ _ _ _ pa); [rewrite Esi, Z.add_0_r; apply Z.mod_small; lia|exact A2|]. rewrite (e_head P m0 pa sa ta la Fa).
  apply t_btc; rg; rewrite word_63 by exact TA; intros f T.
  - eapply t_after; [reflexivity|]. apply t_btc; rg; rewrite word_62 by exact TA; intros f2 T2.
    + eapply t_after; [reflexivity|]. eapply (r_sq w Rw) with (a := la) (pa := pa); [stt ST1|exact AA|rg; exact Esi|apply vlqA; rewrite T; reflexivity| |reflexivity]. right. split; [reflexivity|]. rewrite vmontA by exact T2. unfold w. modr.
    + eapply (r_sq3 w Rw) with (a := la) (pa := pa); [stt ST1|exact AA|rg; exact Esi|apply vlqA; rewrite T; reflexivity| |reflexivity]. rewrite vlongA by assumption. reflexivity.
  - assert (EV : w = (sa * sa) mod q) by (unfold w; rewrite (vshortA T), Z.mul_mod_idemp_l, Z.mul_mod_idemp_r by lia; reflexivity). apply t_zero. intros f2. apply t_mov32. rg. rewrite word_lo. eapply tw_cons; [reflexivity|]. rg.
    pose proof (int32_prod sa sa IS IS) as PR. assert (BB : B = 2 ^ 64) by reflexivity.
    assert (TAIL : forall m c2, tnolab l_ret c2 = true -> St 1 0 pr bp m -> regs m R8 = word_of sa ta -> tw lay ra (push RSI :: Movsx RAX R8 :: Imul64 RAX :: mov RSI RAX :: Callf (f_rawCopyS2L lay ra n) :: pop RSI :: TRet :: c2) (Res (valRes w)) (m, None)).
    { intros m c2 HL ST E. pose proof ST as (_ & SP & _). pose proof (st_range _ _ _ _ _ _ _ _ RSI ST) as RSr. apply t_push; [rewrite SP; apply (sp_al P lay m0 D Rdy); reflexivity|lia|]. apply t_movsx. rg. rewrite E, sx32_word by exact IS. eapply tw_cons; [reflexivity|]. rg. rewrite sx64_mod by (change (B / 2) with (2 ^ 63); unfold is_int32 in IS; lia). rewrite EV. pose proof (Z.mod_pos_bound sa B ltac:(lia)). pose proof (Z.mod_pos_bound (sa * sa) B ltac:(lia)). pose proof (Z.mod_pos_bound (sa * sa / B) B ltac:(lia)). pose proof Opr.
      apply b_copyTail; [stt ST|rg; reflexivity|change (B / 2) with (2 ^ 63); lia|lia|exact HL]. }
    assert (WB : W32 < B) by reflexivity. pose proof (Z.mod_pos_bound sa W32 ltac:(reflexivity)). match goal with |- tw _ _ _ _ (setf (setr (setr _ RAX (?x mod W32)) RDX (?y mod W32)) _, _) => pose proof (Z.mod_pos_bound x W32 ltac:(reflexivity)); pose proof (Z.mod_pos_bound y W32 ltac:(reflexivity)) end. apply t_jo; cbn [fl setf ovf fl3]; intros HO.
    + eapply t_after; [reflexivity|]. apply TAIL; [reflexivity|stt ST1|rg; reflexivity].
    + apply (t_st lay ra _ _ _ _ pr); [rg; rewrite Edi, Z.add_0_r; apply Z.mod_small; lia|exact P2|]. rg. apply t_lab. apply TAIL; [reflexivity|stt ST1|rg; reflexivity].
Qed.
Variables pb sb' tb : Z.
Variable lb : list Z.
Variable vb : Z.
Hypothesis Fb : xfields n m0 pb sb' tb lb.
Hypothesis Vb : denotes q n sb' tb lb vb.
Hypothesis Ob : xoff D m0 pb K.
Hypothesis Sb : pb = pr \/ xapart n pb pr.
Hypothesis Edx : regs m0 RDX = pb.
Lemma b_arg : argok pb lb.
Proof.
  pose proof (e_ptr q P OK m0 pb sb' tb lb Fb) as (A1 & A2 & A3). split; [exact A1|]. split; [exact A3|]. split; [apply Fb|]. intros m c H1 H2 H3 H4. pose proof (sb_pos P). eapply (e_arr P lay m0 D pr Dst pb sb' tb lb Fb Ob Sb 1 m _ c); [lia|exact H1|exact H2|exact H3|lia|exact H4].
Qed.
Notation TB := (e_type q P sb' tb lb vb Vb).
Notation vlongB := (v_long q P m0 pb sb' tb lb vb Fb Vb).
Notation vshortB := (v_short q P m0 pb sb' tb lb vb Fb Vb).
Notation vmontB := (v_mont q P m0 pb sb' tb lb vb Fb Vb).
Notation vlqB := (v_lq q P m0 pb sb' tb lb vb Fb Vb).
Lemma mul_call : neededFor n opt <> 12%nat -> exists m' L, f_mul lay ra n opt m0 = Some m' /\ valRes ((va * vb) mod q) L /\ Cres D K pr L m0 m'.
Proof.
  intros N12. apply t_call with (code := asm_mulT lay ra n opt); [|reflexivity]. pose proof (q_pos q P OK) as Q1. unfold asm_mulT, mulL1S2, mulS1L2. cbn [app]. pose proof a_arg as AA. pose proof AA as (A1 & A3 & _ & _). pose proof (e_ptr q P OK m0 pa sa ta la Fa) as (_ & A2 & _). pose proof b_arg as AB. pose proof AB as (B1 & B3 & _ & _). pose proof (e_ptr q P OK m0 pb sb' tb lb Fb) as (_ & B2 & _). pose proof (pr_facts q P OK lay m0 D pr Dst) as (P1 & P2 & P3). pose proof (st0 1%nat ltac:(lia)) as ST1. pose proof (word_range sa ta TA) as WR. pose proof (word_range sb' tb TB) as WRb. pose proof (proj1 Fa) as IS. pose proof (proj1 Fb) as ISb. pose proof (sb_pos P) as SB. set (w := (va * vb) mod q). assert (Rw : 0 <= w < q) by (apply Z.mod_pos_bound; lia).
  pose proof (sp0_top P lay m0 D Rdy) as TOP. pose proof (xr_room _ _ _ _ Rdy) as RM.
  apply (t_ld lay ra _ _ _ _ pa); [rewrite Esi, Z.add_0_r; apply Z.mod_small; lia|exact A2|]. rewrite (e_head P m0 pa sa ta la Fa).
  apply (t_ld lay ra _ _ _ _ pb); [rg; rewrite Edx, Z.add_0_r; apply Z.mod_small; lia|exact B2|]. rg. rewrite (e_head P m0 pb sb' tb lb Fb).
  assert (RLL : forall m t code, St 1 0 pr bp m -> regs m RSI = pa -> regs m RDX = pb -> tlong tb || tmont tb = true -> goalR w t (eval la * eval lb) -> tnolab l_ret code = true -> tw lay ra (setTypeDest t ++ mulL1L2 lay n opt ++ TRet :: code) (Res (valRes w)) (m, None)).
  { intros m t code HS H1 H2 H3 H4 H5. apply (r_LL w Rw m HS pa pb la lb AA AB t code H1 H2 (vlqB H3) H4 H5). }
  assert (RLS : forall m t l0 done code, St 1 0 pr bp m -> regs m RSI = pa -> regs m R9 = word_of sb' tb -> Nat.eqb done l0 = false -> tlong ta || tmont ta = true -> goalR w t (sb' * eval la) -> tnolab l_ret code = true -> tw lay ra (setTypeDest t ++ mulS1 lay n opt [addi RSI 8; Movsx RDX R9] l0 done ++ TRet :: code) (Res (valRes w)) (m, None)).
  { intros m t l0 done code HS H1 H2 H3 H4 H5 H6. apply (r_S1 w Rw m HS pa la AA _ sb' N12 ISb (load_LS m pa la AA sb' tb ISb H1 H2)); [exact H3|exact (vlqA H4)|exact H5|exact H6]. }
  assert (RSL : forall m t l0 done code, St 1 0 pr bp m -> regs m RDX = pb -> regs m R8 = word_of sa ta -> Nat.eqb done l0 = false -> tlong tb || tmont tb = true -> goalR w t (sa * eval lb) -> tnolab l_ret code = true -> tw lay ra (setTypeDest t ++ mulS1 lay n opt [Lea RSI (BReg RDX) 8; Movsx RDX R8] l0 done ++ TRet :: code) (Res (valRes w)) (m, None)).
  { intros m t l0 done code HS H1 H2 H3 H4 H5 H6. apply (r_S1 w Rw m HS pb lb AB _ sa N12 IS (load_SL m pb lb AB sa ta IS H1 H2)); [exact H3|exact (vlqB H4)|exact H5|exact H6]. }
  apply t_btc; rg; rewrite word_63 by exact TA; intros f T.
  - eapply t_after; [reflexivity|]. apply t_btc; rg; rewrite word_63 by exact TB; intros f2 Tb; [eapply t_after; [reflexivity|]|]; (apply t_btc; rg; rewrite word_62 by exact TA; intros f3 M; [eapply t_after; [reflexivity|]|]; (apply t_btc; rg; rewrite word_62 by exact TB; intros f4 Mb; [eapply t_after; [reflexivity|]|])).
    + apply (RLL _ 192); [stt ST1|rg; exact Esi|rg; exact Edx|rewrite Tb; reflexivity| |reflexivity]. right. split; [reflexivity|]. rewrite vmontA, vmontB by assumption. unfold w. modr.
    + apply (RLL _ 128); [stt ST1|rg; exact Esi|rg; exact Edx|rewrite Tb; reflexivity| |reflexivity]. left. split; [reflexivity|]. rewrite vmontA, vlongB by assumption. unfold w. modr.
    + apply (RLL _ 128); [stt ST1|rg; exact Esi|rg; exact Edx|rewrite Tb; reflexivity| |reflexivity]. left. split; [reflexivity|]. rewrite vlongA, vmontB by assumption. unfold w. modr.
    + eapply (r_LL3 w Rw) with (pa := pa) (pb := pb) (a := la) (b := lb); [stt ST1|exact AA|exact AB|rg; exact Esi|rg; exact Edx|apply vlqB; rewrite Tb; reflexivity| |reflexivity]. rewrite vlongA, vlongB by assumption. reflexivity.
    + apply (RLL _ 192); [stt ST1|rg; exact Esi|rg; exact Edx|rewrite Mb; apply orb_true_r| |reflexivity]. right. split; [reflexivity|]. rewrite vmontA, vmontB by assumption. unfold w. modr.
    + apply (RLS _ 128); [stt ST1|rg; exact Esi|rg; reflexivity|reflexivity|rewrite T; reflexivity| |reflexivity]. left. split; [reflexivity|]. rewrite vmontA by assumption. replace w with ((va * sb') mod q) by (unfold w; rewrite (vshortB Tb), Z.mul_mod_idemp_r by lia; reflexivity). modr.
    + apply (RLL _ 128); [stt ST1|rg; exact Esi|rg; exact Edx|rewrite Mb; apply orb_true_r| |reflexivity]. left. split; [reflexivity|]. rewrite vlongA, vmontB by assumption. unfold w. modr.
    + set (m1 := setf _ f4). assert (HS : St 1 0 pr bp m1) by (unfold m1; stt ST1). apply (r_S13 w Rw m1 HS pa la AA _ sb' N12 ISb (load_LS m1 pa la AA sb' tb ISb Esi eq_refl)); [reflexivity|apply vlqA; rewrite T; reflexivity| |reflexivity]. rewrite vlongA by assumption. replace w with ((va * sb') mod q) by (unfold w; rewrite (vshortB Tb), Z.mul_mod_idemp_r by lia; reflexivity). modr.
  - apply t_btc; rg; rewrite word_63 by exact TB; intros f2 Tb.
    + eapply t_after; [reflexivity|]. (apply t_btc; rg; rewrite word_62 by exact TA; intros f3 M; [eapply t_after; [reflexivity|]|]; (apply t_btc; rg; rewrite word_62 by exact TB; intros f4 Mb; [eapply t_after; [reflexivity|]|])).
      * apply (RLL _ 192); [stt ST1|rg; exact Esi|rg; exact Edx|rewrite Tb; reflexivity| |reflexivity]. right. split; [reflexivity|]. rewrite vmontA, vmontB by assumption. unfold w. modr.
      * apply (RLL _ 128); [stt ST1|rg; exact Esi|rg; exact Edx|rewrite Tb; reflexivity| |reflexivity]. left. split; [reflexivity|]. rewrite vmontA, vlongB by assumption. unfold w. modr.
      * apply (RSL _ 128); [stt ST1|rg; exact Edx|rg; reflexivity|reflexivity|rewrite Tb; reflexivity| |reflexivity]. left. split; [reflexivity|]. rewrite vmontB by assumption. replace w with ((sa * vb) mod q) by (unfold w; rewrite (vshortA T), Z.mul_mod_idemp_l by lia; reflexivity). modr.
      * set (m1 := setf _ f4). assert (HS : St 1 0 pr bp m1) by (unfold m1; stt ST1). apply (r_S13 w Rw m1 HS pb lb AB _ sa N12 IS (load_SL m1 pb lb AB sa ta IS Edx eq_refl)); [reflexivity|apply vlqB; rewrite Tb; reflexivity| |reflexivity]. rewrite vlongB by assumption. replace w with ((sa * vb) mod q) by (unfold w; rewrite (vshortA T), Z.mul_mod_idemp_l by lia; reflexivity). modr.
    + assert (EV : w = (sa * sb') mod q) by (unfold w; rewrite (vshortA T), (vshortB Tb), Z.mul_mod_idemp_l, Z.mul_mod_idemp_r by lia; reflexivity). apply t_zero. intros f3. apply t_mov32. rg. rewrite word_lo. eapply tw_cons; [reflexivity|]. rg.
      pose proof (int32_prod sa sb' IS ISb) as PR. assert (BB : B = 2 ^ 64) by reflexivity.
      assert (TAIL : forall m c2, tnolab l_ret c2 = true -> St 1 0 pr bp m -> regs m R8 = word_of sa ta -> regs m R9 = word_of sb' tb -> tw lay ra (push RSI :: Movsx RAX R8 :: Movsx RCX R9 :: Imul64 RCX :: mov RSI RAX :: Callf (f_rawCopyS2L lay ra n) :: pop RSI :: TRet :: c2) (Res (valRes w)) (m, None)).
      { intros m c2 HL ST E Eb. pose proof ST as (_ & SP & _). pose proof (st_range _ _ _ _ _ _ _ _ RSI ST) as RSr. apply t_push; [rewrite SP; apply (sp_al P lay m0 D Rdy); reflexivity|lia|]. apply t_movsx. rg. rewrite E, sx32_word by exact IS. apply t_movsx. rg. rewrite Eb, sx32_word by exact ISb. eapply tw_cons; [reflexivity|]. rg. rewrite !sx64_mod by (change (B / 2) with (2 ^ 63); unfold is_int32 in IS, ISb; lia). rewrite EV. pose proof (Z.mod_pos_bound sa B ltac:(lia)). pose proof (Z.mod_pos_bound sb' B ltac:(lia)). pose proof (Z.mod_pos_bound (sa * sb') B ltac:(lia)). pose proof (Z.mod_pos_bound (sa * sb' / B) B ltac:(lia)). pose proof Opr.
        apply b_copyTail; [stt ST|rg; reflexivity|change (B / 2) with (2 ^ 63); lia|lia|exact HL]. }
      assert (WB : W32 < B) by reflexivity. pose proof (Z.mod_pos_bound sa W32 ltac:(reflexivity)). match goal with |- tw _ _ _ _ (setf (setr (setr _ RAX (?x mod W32)) RDX (?y mod W32)) _, _) => pose proof (Z.mod_pos_bound x W32 ltac:(reflexivity)); pose proof (Z.mod_pos_bound y W32 ltac:(reflexivity)) end. apply t_jo; cbn [fl setf ovf fl3]; intros HO.
      * eapply t_after; [reflexivity|]. apply TAIL; [reflexivity|stt ST1|rg; reflexivity|rg; reflexivity].
      * apply (t_st lay ra _ _ _ _ pr); [rg; rewrite Edi, Z.add_0_r; apply Z.mod_small; lia|exact P2|]. rg. apply t_lab. apply TAIL; [reflexivity|stt ST1|rg; reflexivity|rg; reflexivity].
Qed.
End Elts.
End Op.
