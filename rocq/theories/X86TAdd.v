(** The tagged addition and subtraction on the machine. *)
From Coq Require Import ZArith Znumtheory List Bool Arith Lia.
From Verif Require Import Limbs LimbsFacts Gen GenFacts Spec Raw RawFacts Fr FrSpec X86 X86Gen X86Sim X86Mont X86Call X86Routines X86Raw X86RawFacts X86RawFacts2 X86RawFacts3 X86Final X86T X86TWords X86TFacts X86THelp X86THelp2 X86THelp3 X86TSpec X86TInv X86TConv X86TFrame.
Import ListNotations.
Open Scope Z_scope.

Ltac tnl l0 NL HL := unfold leaveRet; cbn [app tnolab lab addi subi pop push jmp mov]; destruct (Nat.eqb_spec l_ret l0) as [E|_]; [exfalso; apply NL; symmetry; exact E|exact HL].

Lemma add8_al c : c mod 8 = 0 -> (c + 8) mod 8 = 0.
Proof. intros H. rewrite Z.add_mod, H by lia. reflexivity. Qed.

Section Op.
Variable q : Z.
Variable P : zq.
Hypothesis OK : zq_ok q P.
Notation n := (p_n64 P).
Notation opt := (p_opt P).
Notation sb := (stackBytes n opt).
Variable lay : sym -> Z.
Variable ra : Z.
Hypothesis Hra : 0 <= ra < B.
Variable m0 : mach.
Variable D : Z.
Hypothesis HD : sb + 16 * Z.of_nat (S n) + 160 <= D.
Hypothesis Rdy : xready P lay D m0.
Notation sp0 := (regs m0 RSP).
Variable pr : Z.
Hypothesis Dst : xdest P lay D m0 pr.
Hypothesis Edi : regs m0 RDI = pr.
Notation K := (S n).
Notation R := (Rad n).
Notation N8 := (8 * Z.of_nat (S n)).
Lemma D_pos : 0 <= D. Proof. pose proof (sb_pos P). lia. Qed.
Lemma D_24 : 24 <= D. Proof. pose proof (sb_pos P). lia. Qed.
Notation Inv := (Inv m0 D pr).
Notation St := (St m0 D pr).
Notation Post := (Post P m0 D pr).
Notation Opr := (Opr P lay m0 D pr Dst).
Notation Dpr := (Dpr P lay m0 D pr Dst).
Notation Bpr := (Bpr P lay m0 D pr Dst).
Notation s_copyS2L := (s_copyS2L q P OK lay ra Hra m0 D Rdy pr Dst).
Notation inv_head := (inv_head P lay m0 D pr Dst).
Notation valRes := (valRes q P).
Notation bp := (sp0 - 24).
Notation saved := (saved m0).
Ltac inv1 := first [assumption | apply inv_setf | apply inv_setr; [|try lia|nin'] | apply inv_head; [lia| |try lia] | apply (inv_stk m0 D pr K Opr Bpr); [|try lia|try lia] ].
Ltac inv := repeat inv1.
Ltac stt H := let H1 := fresh in let H2 := fresh in let H3 := fresh in let H4 := fresh in pose proof H as (H1 & H2 & H3 & H4); split; [inv|split; [rg; try lia|split; [rg; try lia|rg; try lia]]].
Definition Res (Q : list Z -> Prop) (s : X86RawFacts.st) : Prop := snd s = Some l_ret /\ regs (fst s) RSP = sp0 /\ mem (fst s) sp0 = mem m0 sp0 /\ exists L, Q L /\ Cres D K pr L m0 (setr (fst s) RSP ((sp0 + 8) mod B)).
(** *** the raw routines *)
Section SCall.
Variables (k : nat) (c bp' : Z) (m : mach) (code : list tinstr) (Q : X86RawFacts.st -> Prop).
Hypothesis Hk : (k <= K)%nat.
Hypothesis C1 : c mod 8 = 0.
Hypothesis C2 : 0 <= c.
Hypothesis C3 : c + 8 <= D.
Hypothesis HS : St k c (pr + 8) bp' m.
Notation dst := (s_dest q P OK lay m0 D pr Dst k c bp' m HS).
Notation spk := (s_sp P lay m0 D Rdy pr k c bp' m C1 C2 HS 8 C3).
Notation edi := (proj1 (proj2 (proj2 HS))).
Ltac fin LL := eapply (s_call q P OK lay ra Hra m0 D Rdy pr Dst _ 8 k c); [exact HS|exact C1|exact C2|lia|exact C3|left; split; [reflexivity|apply LL]|eassumption|eassumption|]; intros HP; eauto.
Lemma s_add a b : limbs_ok n a -> eval a < q -> arr m 8 (regs m RSI) a -> same_or_apart n (regs m RSI) (pr + 8) -> limbs_ok n b -> eval b < q -> arr m 8 (regs m RDX) b -> same_or_apart n (regs m RDX) (pr + 8) ->
  (forall m' l, limbs_ok n l -> eval l = (eval a + eval b) mod q -> Post c (pr + 8) bp' l m m' -> tw lay ra code Q (m', None)) -> tw lay ra (Callf (f_rawAdd lay n) :: code) Q (m, None).
Proof.
  intros H1 H2 H3 H4 H5 H6 H7 H8 H. rewrite <- edi in H4, H8. destruct (c_add q P OK lay ra Hra m0 D Rdy pr K Opr Dpr Bpr k m Hk (proj1 HS) K ltac:(lia) spk a b dst H1 H2 H3 H4 H5 H6 H7 H8) as (m' & l & E & L1 & L2 & DN). fin L1.
Qed.
Lemma s_sub a b : limbs_ok n a -> eval a < q -> arr m 8 (regs m RSI) a -> same_or_apart n (regs m RSI) (pr + 8) -> limbs_ok n b -> eval b < q -> arr m 8 (regs m RDX) b -> same_or_apart n (regs m RDX) (pr + 8) ->
  (forall m' l, limbs_ok n l -> eval l = (eval a - eval b) mod q -> Post c (pr + 8) bp' l m m' -> tw lay ra code Q (m', None)) -> tw lay ra (Callf (f_rawSub lay n) :: code) Q (m, None).
Proof.
  intros H1 H2 H3 H4 H5 H6 H7 H8 H. rewrite <- edi in H4, H8. destruct (c_sub q P OK lay ra Hra m0 D Rdy pr K Opr Dpr Bpr k m Hk (proj1 HS) K ltac:(lia) spk a b dst H1 H2 H3 H4 H5 H6 H7 H8) as (m' & l & E & L1 & L2 & DN). fin L1.
Qed.
Lemma s_addLS a : limbs_ok n a -> eval a < q -> arr m 8 (regs m RSI) a -> same_or_apart n (regs m RSI) (pr + 8) -> regs m RDX <= q ->
  (forall m' l, limbs_ok n l -> eval l = (eval a + regs m RDX) mod q -> Post c (pr + 8) bp' l m m' -> tw lay ra code Q (m', None)) -> tw lay ra (Callf (f_rawAddLS lay n) :: code) Q (m, None).
Proof.
  intros H1 H2 H3 H4 H5 H. rewrite <- edi in H4. destruct (c_addLS q P OK lay ra Hra m0 D Rdy pr K Opr Dpr Bpr k m Hk (proj1 HS) K ltac:(lia) spk a dst H1 H2 H3 H4 H5) as (m' & l & E & L1 & L2 & DN). rewrite Z.add_comm in L2. fin L1.
Qed.
Lemma s_subLS a : limbs_ok n a -> eval a < q -> arr m 8 (regs m RSI) a -> same_or_apart n (regs m RSI) (pr + 8) -> regs m RDX <= q ->
  (forall m' l, limbs_ok n l -> eval l = (eval a - regs m RDX) mod q -> Post c (pr + 8) bp' l m m' -> tw lay ra code Q (m', None)) -> tw lay ra (Callf (f_rawSubLS lay n) :: code) Q (m, None).
Proof.
  intros H1 H2 H3 H4 H5 H. rewrite <- edi in H4. destruct (c_subLS q P OK lay ra Hra m0 D Rdy pr K Opr Dpr Bpr k m Hk (proj1 HS) K ltac:(lia) spk a dst H1 H2 H3 H4 H5) as (m' & l & E & L1 & L2 & DN). fin L1.
Qed.
Lemma s_subSL a : limbs_ok n a -> eval a < q -> arr m 8 (regs m RDX) a -> same_or_apart n (regs m RDX) (pr + 8) -> regs m RSI < q ->
  (forall m' l, limbs_ok n l -> eval l = (regs m RSI - eval a) mod q -> Post c (pr + 8) bp' l m m' -> tw lay ra code Q (m', None)) -> tw lay ra (Callf (f_rawSubSL lay n) :: code) Q (m, None).
Proof.
  intros H1 H2 H3 H4 H5 H. rewrite <- edi in H4. destruct (c_subSL q P OK lay ra Hra m0 D Rdy pr K Opr Dpr Bpr k m Hk (proj1 HS) K ltac:(lia) spk a dst H1 H2 H3 H4 H5) as (m' & l & E & L1 & L2 & DN). fin L1.
Qed.
Lemma s_negLS a : limbs_ok n a -> eval a < q -> arr m 8 (regs m RSI) a -> apart n (regs m RSI) (pr + 8) -> 1 <= regs m RDX <= q ->
  (forall m' l, limbs_ok n l -> eval l = (- eval a - regs m RDX) mod q -> Post c (pr + 8) bp' l m m' -> tw lay ra code Q (m', None)) -> tw lay ra (Callf (f_rawNegLS lay ra n) :: code) Q (m, None).
Proof.
  intros H1 H2 H3 H4 H5 H. rewrite <- edi in H4. destruct (c_negLS q P OK lay ra Hra m0 D Rdy pr K Opr Dpr Bpr k m Hk (proj1 HS) K ltac:(lia) spk a dst H1 H2 H3 H4 H5) as (m' & l & E & L1 & L2 & DN). fin L1.
Qed.
End SCall.
(** a routine on two limb arrays, and one on a limb array and a word *)
Definition LLok (f : mach -> option mach) (op : Z -> Z -> Z) : Prop := forall k c bp' m code Q, (k <= K)%nat -> c mod 8 = 0 -> 0 <= c -> c + 8 <= D -> St k c (pr + 8) bp' m ->
  forall a b, limbs_ok n a -> eval a < q -> arr m 8 (regs m RSI) a -> same_or_apart n (regs m RSI) (pr + 8) -> limbs_ok n b -> eval b < q -> arr m 8 (regs m RDX) b -> same_or_apart n (regs m RDX) (pr + 8) ->
  (forall m' l, limbs_ok n l -> eval l = (op (eval a) (eval b)) mod q -> Post c (pr + 8) bp' l m m' -> tw lay ra code Q (m', None)) -> tw lay ra (Callf f :: code) Q (m, None).
Definition LSok (f : mach -> option mach) (op : Z -> Z -> Z) : Prop := forall k c bp' m code Q, (k <= K)%nat -> c mod 8 = 0 -> 0 <= c -> c + 8 <= D -> St k c (pr + 8) bp' m ->
  forall a, limbs_ok n a -> eval a < q -> arr m 8 (regs m RSI) a -> same_or_apart n (regs m RSI) (pr + 8) -> regs m RDX <= q ->
  (forall m' l, limbs_ok n l -> eval l = (op (eval a) (regs m RDX)) mod q -> Post c (pr + 8) bp' l m m' -> tw lay ra code Q (m', None)) -> tw lay ra (Callf f :: code) Q (m, None).
Lemma LL_add : LLok (f_rawAdd lay n) Z.add. Proof. exact s_add. Qed.
Lemma LL_sub : LLok (f_rawSub lay n) Z.sub. Proof. exact s_sub. Qed.
Lemma LS_add : LSok (f_rawAddLS lay n) Z.add. Proof. exact s_addLS. Qed.
Lemma LS_sub : LSok (f_rawSubLS lay n) Z.sub. Proof. exact s_subLS. Qed.
(** *** blocks *)
Definition FS (k : nat) (c : Z) (m : mach) : Prop := St k c pr bp m /\ saved m.
Lemma saved_ext c m m' : 24 <= c -> (forall x, sp0 - c <= x < sp0 + 8 -> mem m' x = mem m x) -> saved m -> saved m'.
Proof. intros H E (H1 & H2 & H3). split; [rewrite E by lia; exact H1|]. split; [rewrite E by lia; exact H2|rewrite E by lia; exact H3]. Qed.
Section R.
Variable w : Z.
Hypothesis Rw : 0 <= w < q.
Definition goalV (t : Z) (X : Z) : Prop := (t = 128 /\ X mod q = w) \/ (t = 192 /\ X mod q = (w * R) mod q).
Lemma goal_t t X : goalV t X -> In t [64; 128; 192].
Proof. intros [[-> _] | [-> _]]; cbn [In]; tauto. Qed.
(** the end *)
Lemma r_leave t c m s0 l X code : FS K c m -> at_addr m (pr + 8) l -> mem m pr = word_of s0 (t * 2 ^ 24) -> is_int32 s0 -> limbs_ok n l -> eval l = X mod q -> goalV t X -> tnolab l_ret code = true -> tw lay ra (leaveRet ++ code) (Res (valRes w)) (m, None).
Proof.
  intros (ST & SV) AT HW Hs Hl Hq HG HL. pose proof (pr_facts q P OK lay m0 D pr Dst) as (P1 & P2 & P3). apply (b_leave P lay ra m0 D Rdy pr K Bpr D_24 K c); [rewrite Edi; exact ST|exact SV|]. rewrite Edi. intros m' ST' M' _ _ _.
  apply (finish' P lay ra Hra m0 D D_pos pr Dst) with (L := word_of s0 (t * 2 ^ 24) :: l); [exact ST'|exact Edi|apply at_cons; [rewrite M'; exact HW|exact P1|exact P2|eapply at_ext; [|exact AT]; intros x _; apply M']|exact HL|].
  destruct HG as [[-> HG] | [-> HG]].
  - apply long_val; [exact Hs|exact Hl|rewrite Hq; exact HG|exact Rw].
  - apply mont_valR; [exact Hs|exact Hl|rewrite Hq; exact HG|exact Rw].
Qed.
(** the raw routine is done: restore rdi and rsi, leave *)
Lemma r_sub t c m1 m s0 l X code : 24 <= c -> saved m1 -> mem m1 pr = word_of s0 (t * 2 ^ 24) -> Post c (pr + 8) bp l m1 m -> is_int32 s0 -> limbs_ok n l -> eval l = X mod q -> goalV t X -> tnolab l_ret code = true ->
  tw lay ra ([subi RDI 8; subi RSI 8] ++ leaveRet ++ code) (Res (valRes w)) (m, None).
Proof.
  intros Hc SV HW (ST & AT & HH & MS) Hs Hl Hq HG HL. pose proof (pr_facts q P OK lay m0 D pr Dst) as (P1 & P2 & P3). cbn [app]. apply t_subi; [destruct ST as (_ & _ & -> & _); lia|]. intros f4. apply t_subi_any. intros x f5 Hx.
  eapply (r_leave t c _ s0 l X); [split; [stt ST|]|eapply at_ext; [|exact AT]; intros; reflexivity|rg; rewrite HH by reflexivity; exact HW|exact Hs|exact Hl|exact Hq|exact HG|exact HL].
  eapply (saved_ext c m1); [exact Hc| |exact SV]. intros y Hy. rg. apply MS, Hy.
Qed.
Lemma arr_ext m1 m2 S p l : (forall x, mem m2 x = mem m1 x) -> regs m2 RSP = regs m1 RSP -> arr m1 S p l -> arr m2 S p l.
Proof. intros H1 H2 [A O]. split; [eapply at_ext; [|exact A]; intros; apply H1|rewrite H2; exact O]. Qed.
Lemma arr16 m p l : arr m 16 p l -> arr m 8 p l.
Proof. intros [A O]. split; [exact A|lia]. Qed.
(** an operand of the raw routines *)
Definition opd_at (m : mach) (p : Z) (l : list Z) : Prop := 0 <= p /\ p + 16 <= B /\ limbs_ok n l /\ eval l < q /\ arr m 16 (p + 8) l /\ same_or_apart n (p + 8) (pr + 8).
Lemma opd_ext m m' p l : (forall x, mem m' x = mem m x) -> regs m' RSP = regs m RSP -> opd_at m p l -> opd_at m' p l.
Proof. intros H1 H2 (A1 & A2 & A3 & A4 & A5 & A6). unfold opd_at. pose proof (arr_ext m m' 16 (p + 8) l H1 H2 A5). tauto. Qed.
Lemma r_LL f op t c m pa pb a b s0 code : LLok f op -> c mod 8 = 0 -> 24 <= c -> c + 8 <= D -> FS 1 c m -> mem m pr = word_of s0 (t * 2 ^ 24) -> is_int32 s0 -> regs m RSI = pa -> regs m RDX = pb -> opd_at m pa a -> opd_at m pb b -> goalV t (op (eval a) (eval b)) -> tnolab l_ret code = true ->
  tw lay ra (opL1L2 f ++ code) (Res (valRes w)) (m, None).
Proof.
  intros LL C1 C2 C3 (ST & SV) HW Hs Ea Eb (A1 & A2 & A3 & A4 & A5 & A6) (B1 & B2 & B3 & B4 & B5 & B6) HG HL. pose proof (pr_facts q P OK lay m0 D pr Dst) as (P1 & P2 & P3). pose proof (sb_pos P) as SB. pose proof ST as (_ & _ & ED & _).
  unfold opL1L2. cbn [app]. apply t_addi; [rewrite ED; lia|]. intros f1. rg. rewrite ED. apply t_addi; [rg; rewrite Ea; lia|]. intros f2. rg. rewrite Ea. apply t_addi; [rg; rewrite Eb; lia|]. intros f3. rg. rewrite Eb. set (m1 := setf _ f3).
  assert (ST1 : St 1 c (pr + 8) bp m1) by (unfold m1; stt ST).
  eapply (LL 1%nat c bp m1) with (a := a) (b := b); [lia|exact C1|lia|exact C3|exact ST1|exact A3|exact A4|apply (arr_ext m); [reflexivity|reflexivity|exact (arr16 _ _ _ A5)]|exact A6|exact B3|exact B4|apply (arr_ext m); [reflexivity|reflexivity|exact (arr16 _ _ _ B5)]|exact B6|].
  intros m2 l L1 L2 PO. eapply (r_sub t c m1 m2 s0 l); [exact C2|exact SV|exact HW|exact PO|exact Hs|exact L1|exact L2|exact HG|exact HL].
Qed.
(** a limb array and a signed word *)
Definition LSrest (neg pos : mach -> option mach) (l : nat) : list tinstr :=
  [addi RDI 8; CmpJ true RDX (OImm 0) Cns l; Neg64 RDX; Callf neg; subi RDI 8; subi RSI 8] ++ leaveRet ++ [lab l; Callf pos; subi RDI 8; subi RSI 8] ++ leaveRet.
Hypothesis HQ : 2 ^ 32 < q.
Lemma r_LS neg pos opn op t c m pa a s s0 l0 code : LSok neg opn -> LSok pos op -> (forall x y, opn x (- y) = op x y) -> c mod 8 = 0 -> 24 <= c -> c + 8 <= D -> FS 1 c m -> mem m pr = word_of s0 (t * 2 ^ 24) -> is_int32 s0 -> is_int32 s -> l0 <> l_ret -> regs m RSI = pa + 8 -> regs m RDX = s mod B -> opd_at m pa a -> goalV t (op (eval a) s) -> tnolab l_ret code = true ->
  tw lay ra (LSrest neg pos l0 ++ code) (Res (valRes w)) (m, None).
Proof.
  intros LN LP HO C1 C2 C3 (ST & SV) HW Hs0 Hs NL Ea Er (A1 & A2 & A3 & A4 & A5 & A6) HG HL. pose proof (pr_facts q P OK lay m0 D pr Dst) as (P1 & P2 & P3). pose proof (sb_pos P) as SB. pose proof ST as (_ & _ & ED & _). assert (BB : B = 2 ^ 64) by reflexivity.
  unfold LSrest. rewrite <- !app_assoc. cbn [app]. apply t_addi; [rewrite ED; lia|]. intros f1. rg. rewrite ED. eapply t_cmpj; [reflexivity|reflexivity| |]; rg; rewrite Er; rewrite (scond_ns s Hs); intros f2 HS.
  - assert (S0 : 0 <= s) by (destruct (Z.ltb_spec s 0); [discriminate|assumption]). eapply t_after; [unfold leaveRet; cbn [app after lab addi subi pop push jmp mov]; rewrite Nat.eqb_refl; reflexivity|]. set (m1 := setf _ f2). assert (ST1 : St 1 c (pr + 8) bp m1) by (unfold m1; stt ST). unfold is_int32 in Hs.
    assert (E1 : regs m1 RDX = s) by (unfold m1; rg; rewrite Er; apply Z.mod_small; lia).
    eapply (LP 1%nat c bp m1) with (a := a); [lia|exact C1|lia|exact C3|exact ST1|exact A3|exact A4|unfold m1; rg; rewrite Ea; apply (arr_ext m); [reflexivity|reflexivity|exact (arr16 _ _ _ A5)]|unfold m1; rg; rewrite Ea; exact A6|rewrite E1; lia|].
    intros m2 l L1 L2 PO. rewrite E1 in L2. eapply (r_sub t c m1 m2 s0 l); [exact C2|exact SV|exact HW|exact PO|exact Hs0|exact L1|exact L2|exact HG|exact HL].
  - assert (S0 : s < 0) by (destruct (Z.ltb_spec s 0); [assumption|discriminate]). apply t_neg64. intros f3. rg. rewrite Er, (neg_B s Hs S0). set (m1 := setf _ f3). unfold is_int32 in Hs. assert (ST1 : St 1 c (pr + 8) bp m1) by (unfold m1; stt ST).
    eapply (LN 1%nat c bp m1) with (a := a); [lia|exact C1|lia|exact C3|exact ST1|exact A3|exact A4|unfold m1; rg; rewrite Ea; apply (arr_ext m); [reflexivity|reflexivity|exact (arr16 _ _ _ A5)]|unfold m1; rg; rewrite Ea; exact A6|unfold m1; rg; lia|].
    intros m2 l L1 L2 PO. unfold m1 in L2. rewrite HO in L2 || (cbn [regs setf setr] in L2; rewrite ?rupd_eq in L2; rewrite HO in L2). eapply (r_sub t c m1 m2 s0 l); [exact C2|exact SV|exact HW|exact PO|exact Hs0|exact L1|exact L2|exact HG|].
    tnl l0 NL HL.
Qed.
(** short minus limb array *)
Lemma scond_s32 s : is_int32 s -> scond_holds false (s mod W32) 0 Cs = (s <? 0).
Proof. intros H. unfold scond_holds. rewrite Z.sub_0_r, Z.mod_mod by discriminate. rewrite sx32_mod, sx32_int by exact H. reflexivity. Qed.
Lemma r_pop t c m1 m s0 l X code : 24 <= c -> c mod 8 = 0 -> saved m1 -> mem m1 pr = word_of s0 (t * 2 ^ 24) -> Post (c + 8) (pr + 8) bp l m1 m -> is_int32 s0 -> limbs_ok n l -> eval l = X mod q -> goalV t X -> tnolab l_ret code = true ->
  tw lay ra ([subi RDI 8; pop RSI] ++ leaveRet ++ code) (Res (valRes w)) (m, None).
Proof.
  intros Hc C1 SV HW (ST & AT & HH & MS) Hs Hl Hq HG HL. pose proof (pr_facts q P OK lay m0 D pr Dst) as (P1 & P2 & P3). pose proof ST as (_ & SP & _). pose proof (xr_room _ _ _ _ Rdy) as RM. pose proof (sp0_top P lay m0 D Rdy) as TOP. cbn [app]. apply t_subi; [destruct ST as (_ & _ & -> & _); lia|]. intros f4. pose proof (st_mrange _ _ _ _ _ _ _ _ (regs m RSP) ST) as MR. pose proof (st_range _ _ _ _ _ _ _ _ RSP ST) as RR.
  apply t_pop; [rg; rewrite SP; apply (sp_al P lay m0 D Rdy), add8_al, C1|rg; lia|rg; lia|]. rg.
  eapply (r_leave t c _ s0 l X); [split; [stt ST|]|eapply at_ext; [|exact AT]; intros; reflexivity|rg; rewrite HH by reflexivity; exact HW|exact Hs|exact Hl|exact Hq|exact HG|exact HL].
  eapply (saved_ext c m1); [exact Hc| |exact SV]. intros y Hy. rg. apply MS. lia.
Qed.
Lemma r_subSL t c m pb b s ts s0 l0 code : c mod 8 = 0 -> 24 <= c -> c + 16 <= D -> FS 1 c m -> mem m pr = word_of s0 (t * 2 ^ 24) -> is_int32 s0 -> is_int32 s -> l0 <> l_ret -> regs m RDX = pb -> regs m RAX = word_of s ts -> opd_at m pb b -> (s < 0 -> xapart n pb pr) -> goalV t (s - eval b) -> tnolab l_ret code = true ->
  tw lay ra (subS1L2 lay ra n l0 ++ code) (Res (valRes w)) (m, None).
Proof.
  intros C1 C2 C3 (ST & SV) HW Hs0 Hs NL Eb Er (A1 & A2 & A3 & A4 & A5 & A6) AP HG HL. pose proof (pr_facts q P OK lay m0 D pr Dst) as (P1 & P2 & P3). pose proof (sb_pos P) as SB. pose proof ST as (_ & SP & ED & _). assert (BB : B = 2 ^ 64) by reflexivity. pose proof (st_range _ _ _ _ _ _ _ _ RSI ST) as RSr. pose proof (st_range _ _ _ _ _ _ _ _ RSP ST) as RR. pose proof (xr_room _ _ _ _ Rdy) as RM. pose proof (sp0_top P lay m0 D Rdy) as TOP. pose proof Opr as OP. pose proof (Z.mod_pos_bound s B ltac:(reflexivity)) as SM. destruct SV as (V1 & V2 & V3).
  assert (AS : (sp0 - c) mod 8 = 0) by (apply (sp_al P lay m0 D Rdy), C1).
  assert (AX : forall m1, (forall x, x <> sp0 - c - 8 -> mem m1 x = mem m x) -> regs m1 RSP = sp0 - (c + 8) -> arr m1 8 (pb + 8) b).
  { intros m1 M1 S1. destruct A5 as [A O]. rewrite SP in O. pose proof (proj1 A3) as LB. split; [eapply at_ext; [|exact A]; intros x Hx; apply M1; lia|rewrite S1; lia]. }
  unfold subS1L2. rewrite <- !app_assoc. cbn [app]. eapply t_cmpj; [reflexivity|reflexivity| |]; rg; rewrite Er, word_lo, (scond_s32 s Hs); intros f2 HS.
  - apply Z.ltb_lt in HS. specialize (AP HS). eapply t_after; [unfold leaveRet; cbn [app after lab addi subi pop push jmp mov]; rewrite Nat.eqb_refl; reflexivity|].
    apply t_push; [rg; rewrite SP; exact AS|rg; lia|]. rg. rewrite SP. eapply t_lea; [unfold addr; rg; rewrite Eb; apply Z.mod_small; lia|]. apply t_movsx. rg. rewrite Er, sx32_word by exact Hs. apply t_addi; [rg; rewrite ED; lia|]. intros f1. rg. rewrite ED. apply t_neg64. intros f3. rg. rewrite (neg_B s Hs HS). set (m1 := setf _ f3). unfold is_int32 in Hs. assert (ST1 : St 1 (c + 8) (pr + 8) bp m1) by (unfold m1; stt ST).
    eapply (s_negLS 1%nat (c + 8) bp m1) with (a := b); [lia|apply add8_al, C1|lia|lia|exact ST1|exact A3|exact A4|unfold m1; rg; apply AX; [intros x Hx; rg; apply mupd_neq; exact Hx|rg; lia]|unfold m1; rg; unfold apart, xapart in *; lia|unfold m1; rg; lia|].
    intros m2 l L1 L2 PO. unfold m1 in L2. cbn [regs setf setr] in L2. rewrite ?rupd_eq in L2. eapply (r_pop t c m1 m2 s0 l); [exact C2|exact C1| | |exact PO|exact Hs0|exact L1| |exact HG|exact HL].
    + unfold m1. split; [|split]; rg; rewrite mupd_neq by lia; assumption.
    + unfold m1. rg. rewrite mupd_neq by lia. exact HW.
    + rewrite L2. f_equal. ring.
  - apply Z.ltb_ge in HS. apply t_push; [rg; rewrite SP; exact AS|rg; lia|]. rg. rewrite SP. apply t_addi; [rg; rewrite ED; lia|]. intros f1. rg. rewrite ED. apply t_movsx. rg. rewrite Er, sx32_word by exact Hs. unfold is_int32 in Hs. rewrite (Z.mod_small s B) by lia. apply t_addi; [rg; rewrite Eb; lia|]. intros f3. rg. rewrite Eb. set (m1 := setf _ f3). assert (ST1 : St 1 (c + 8) (pr + 8) bp m1) by (unfold m1; stt ST).
    eapply (s_subSL 1%nat (c + 8) bp m1) with (a := b); [lia|apply add8_al, C1|lia|lia|exact ST1|exact A3|exact A4|unfold m1; rg; apply AX; [intros x Hx; rg; apply mupd_neq; exact Hx|rg; lia]|unfold m1; rg; exact A6|unfold m1; rg; lia|].
    intros m2 l L1 L2 PO. unfold m1 in L2. cbn [regs setf setr] in L2. eapply (r_pop t c m1 m2 s0 l); [exact C2|exact C1| | |exact PO|exact Hs0|exact L1|exact L2|exact HG|].
    + unfold m1. split; [|split]; rg; rewrite mupd_neq by lia; assumption.
    + unfold m1. rg. rewrite mupd_neq by lia. exact HW.
    + tnl l0 NL HL.
Qed.
(** two shorts *)
Definition SSop (op32 : reg -> reg -> tinstr) (op64 : iname) (op : Z -> Z -> Z) : Prop :=
  (forall m code Q, (forall f, ovf f = negb (fits32 (op (sx32 (regs m RDX)) (sx32 (regs m RCX)))) -> tw lay ra code Q (setf (setr m RDX (op (sx32 (regs m RDX)) (sx32 (regs m RCX)) mod W32)) f, None)) -> tw lay ra (op32 RDX RCX :: code) Q (m, None)) /\
  (forall m code Q, (forall f, tw lay ra code Q (setf (setr m RSI (op (regs m RSI) (regs m RDX) mod B)) f, None)) -> tw lay ra (X (I op64 [OReg RSI; OReg RDX]) :: code) Q (m, None)) /\
  (forall x y, op (x mod B) (y mod B) mod B = op x y mod B) /\ (forall x y, is_int32 x -> is_int32 y -> - 2 ^ 32 <= op x y <= 2 ^ 32) /\
  (forall r1 r2, match op32 r1 r2 with X _ => False | _ => True end).
Lemma SS_add : SSop Add32 Iadd Z.add.
Proof.
  split; [intros m code Q H; eapply tw_cons; [reflexivity|apply H; reflexivity]|]. split.
  - intros m code Q H. eapply tw_cons; [|apply H]. cbn [tstep step]. unfold exec. cbn [encodable is_reg is_mem orb andb negb rds rd sem]. unfold addf. cbn [wrs wr]. rewrite Z.add_0_r. reflexivity.
  - split; [intros x y; symmetry; apply Zplus_mod|]. split; [unfold is_int32; intros; lia|intros; exact Logic.I].
Qed.
Lemma SS_sub : SSop Sub32 Isub Z.sub.
Proof.
  split; [intros m code Q H; eapply tw_cons; [reflexivity|apply H; reflexivity]|]. split.
  - intros m code Q H. eapply tw_cons; [|apply H]. cbn [tstep step]. unfold exec. cbn [encodable is_reg is_mem orb andb negb rds rd sem]. unfold subf. cbn [wrs wr]. rewrite Z.sub_0_r. reflexivity.
  - split; [intros x y; symmetry; apply Zminus_mod|]. split; [unfold is_int32; intros; lia|intros; exact Logic.I].
Qed.
Lemma fs_mono k k' c m : (k <= k')%nat -> FS k c m -> FS k' c m.
Proof. intros H ((S1 & S2) & V). split; [|exact V]. split; [exact (inv_mono m0 D pr K Bpr _ _ _ H S1)|exact S2]. Qed.
Lemma r_SS op32 op64 op c m sa ta sb' tb l0 code : SSop op32 op64 op -> c mod 8 = 0 -> 24 <= c -> c + 16 <= D -> FS 1 c m -> is_int32 sa -> is_int32 sb' -> l0 <> l_ret -> regs m RAX = word_of sa ta -> regs m RCX = word_of sb' tb -> w = op sa sb' mod q -> tnolab l_ret code = true ->
  tw lay ra (opS1S2 lay ra n op32 op64 l0 ++ code) (Res (valRes w)) (m, None).
Proof.
  intros (T32 & T64 & HM & HB & HX) C1 C2 C3 FSm Ha Hb NL Ea Eb HW HL. pose proof FSm as (ST & SV). pose proof (pr_facts q P OK lay m0 D pr Dst) as (P1 & P2 & P3). pose proof (sb_pos P) as SB. pose proof ST as (_ & SP & ED & _). assert (BB : B = 2 ^ 64) by reflexivity. assert (WB : W32 < B) by reflexivity. pose proof (st_range _ _ _ _ _ _ _ _ RSI ST) as RSr. pose proof (st_range _ _ _ _ _ _ _ _ RSP ST) as RR. pose proof (xr_room _ _ _ _ Rdy) as RM. pose proof (sp0_top P lay m0 D Rdy) as TOP. pose proof Opr as OP. pose proof SV as (V1 & V2 & V3). pose proof (q_pos q P OK) as Q1.
  assert (AS : (sp0 - c) mod 8 = 0) by (apply (sp_al P lay m0 D Rdy), C1). specialize (HB sa sb' Ha Hb).
  unfold opS1S2. rewrite <- !app_assoc. cbn [app]. apply t_zero. intros f1. apply t_mov32. rg. rewrite Ea, word_lo. apply T32. rg. rewrite sx32_mod, (sx32_int sa Ha), Eb, (sx32_word sb' tb Hb). pose proof (Z.mod_pos_bound sa W32 ltac:(reflexivity)). pose proof (Z.mod_pos_bound (op sa sb') W32 ltac:(reflexivity)). intros f2 OV. apply t_jo; cbn [fl setf ovf fl3]; rewrite OV; intros HO.
  - eapply t_after; [unfold leaveRet; cbn [app after lab addi subi pop push jmp mov X86T.st]; rewrite Nat.eqb_refl; reflexivity|].
    apply t_push; [rg; rewrite SP; exact AS|rg; lia|]. rg. rewrite SP. apply t_movsx. rg. rewrite Ea, sx32_word by exact Ha. apply t_movsx. rg. rewrite Eb, sx32_word by exact Hb. apply T64. rg. rewrite HM. intros f3. set (m1 := setf _ f3). pose proof (Z.mod_pos_bound (op sa sb') B ltac:(reflexivity)). pose proof (Z.mod_pos_bound sa B ltac:(reflexivity)). pose proof (Z.mod_pos_bound sb' B ltac:(reflexivity)).
    assert (ST1 : St 1 (c + 8) pr bp m1) by (unfold m1; stt ST).
    eapply (s_copyS2L 1 (c + 8) bp) with (x := op sa sb'); [lia|apply add8_al, C1|lia|exact ST1|lia|unfold m1; rg; reflexivity|change (B / 2) with (2 ^ 63); lia|lia|].
    intros m2 l2 L1 L2 (ST2 & AT & _ & MS). pose proof ST2 as (_ & SP2 & _). pose proof (st_mrange _ _ _ _ _ _ _ _ (regs m2 RSP) ST2) as MR. apply t_pop; [rewrite SP2; apply (sp_al P lay m0 D Rdy), add8_al, C1|rewrite SP2; lia|rewrite SP2; lia|].
    apply (r_leave 128 c _ 0 l2 (op sa sb')).
    + split; [stt ST2|]. assert (M2 : forall x, sp0 - c <= x < sp0 + 8 -> mem m2 x = mem m x). { intros x Hx. rewrite MS by lia. unfold m1. rg. apply mupd_neq. lia. } eapply (saved_ext c m); [exact C2| |exact SV]. intros x Hx. rg. apply M2, Hx.
    + apply at_tail in AT. eapply at_ext; [|exact AT]. intros; reflexivity.
    + rg. exact (at_head _ _ _ _ AT).
    + unfold is_int32; lia.
    + exact L1.
    + exact L2.
    + left. split; [reflexivity|symmetry; exact HW].
    + exact HL.
  - assert (FF : is_int32 (op sa sb')) by (apply negb_false_iff in HO; unfold fits32 in HO; apply andb_true_iff in HO as [H1 H2]; apply Z.leb_le in H1; apply Z.ltb_lt in H2; split; assumption).
    apply (t_st lay ra _ _ _ _ pr); [rg; rewrite ED, Z.add_0_r; apply Z.mod_small; lia|exact P2|]. rg.
    match goal with |- tw _ _ _ _ (?mm, _) => set (m1 := mm) end. assert (ST1 : St K c pr bp m1). { assert (STK : St K c pr bp m) by (split; [refine (inv_mono m0 D pr K Bpr 1 K _ _ (proj1 ST)); lia|apply ST]). unfold m1. stt STK. }
    apply (b_leave P lay ra m0 D Rdy pr K Bpr D_24 K c m1); [rewrite Edi; exact ST1|unfold m1; split; [|split]; rg; rewrite mupd_neq by lia; assumption|]. rewrite Edi. intros m' ST' M' _ _ _.
    apply (finish_short q P OK lay ra Hra m0 D D_pos pr Dst Edi) with (s' := op sa sb'); [exact ST'|exact FF|rewrite M'; unfold m1; rg; apply mupd_eq|tnl l0 NL HL|].
    intros l' Hl'. rewrite HW. apply (short_val q P OK HQ); assumption.
Qed.
(** the type of the result *)
Lemma b_setT t c m rest Q : In t [64; 128; 192] -> 24 <= c -> FS 1 c m ->
  (forall m', FS 1 c m' -> mem m' pr = word_of (sx32 (mem m pr)) (t * 2 ^ 24) -> (forall r, r <> R11 -> regs m' r = regs m r) -> tw lay ra rest Q (m', None)) -> tw lay ra (setTypeDest t ++ rest) Q (m, None).
Proof.
  intros Ht Hc (ST & SV) H. pose proof (pr_facts q P OK lay m0 D pr Dst) as (P1 & P2 & P3). pose proof Opr as OP. pose proof SV as (V1 & V2 & V3). pose proof (sb_pos P). apply t_setType with (p := pr); [exact Ht|apply ST|exact P2| |apply (st_range _ _ _ _ _ _ _ _ _ ST)].
  intros x f Hx Hx2. pose proof (Z.mod_pos_bound (mem m pr) W32 ltac:(reflexivity)) as Hw.
  assert (T2 : 64 <= t <= 192) by (cbn [In] in Ht; lia). assert (EB : B = W32 * W32) by reflexivity. assert (0 <= t * 2 ^ 24 * W32 /\ t * 2 ^ 24 * W32 + W32 <= B) by (rewrite EB; unfold W32 in *; lia).
  apply H.
  - split; [stt ST|]. split; [|split]; rg; rewrite mupd_neq by lia; assumption.
  - rg. rewrite mupd_eq. unfold word_of. rewrite sx32_back. reflexivity.
  - intros r Hr. cbn [setm setf setr regs]. rewrite !rupd_neq by exact Hr. reflexivity.
Qed.
End R.
Section Elts.
Hypothesis HQ : 2 ^ 32 < q.
Hypothesis N12 : neededFor n opt <> 12%nat.
Variables pa sa ta : Z.
Variable la : list Z.
Variable va : Z.
Hypothesis Fa : xfields n m0 pa sa ta la.
Hypothesis Va : denotes q n sa ta la va.
Hypothesis Oa : xoff D m0 pa K.
Hypothesis Sa : pa = pr \/ xapart n pa pr.
Hypothesis Esi : regs m0 RSI = pa.
Variables pb sb' tb : Z.
Variable lb : list Z.
Variable vb : Z.
Hypothesis Fb : xfields n m0 pb sb' tb lb.
Hypothesis Vb : denotes q n sb' tb lb vb.
Hypothesis Ob : xoff D m0 pb K.
Hypothesis Sb : pb = pr \/ xapart n pb pr.
Hypothesis Edx : regs m0 RDX = pb.
Notation TA := (e_type q P sa ta la va Va).
Notation vlongA := (v_long q P m0 pa sa ta la va Fa Va).
Notation vshortA := (v_short q P m0 pa sa ta la va Fa Va).
Notation vmontA := (v_mont q P m0 pa sa ta la va Fa Va).
Notation vlqA := (v_lq q P m0 pa sa ta la va Fa Va).
Notation TB := (e_type q P sb' tb lb vb Vb).
Notation vlongB := (v_long q P m0 pb sb' tb lb vb Fb Vb).
Notation vshortB := (v_short q P m0 pb sb' tb lb vb Fb Vb).
Notation vmontB := (v_mont q P m0 pb sb' tb lb vb Fb Vb).
Notation vlqB := (v_lq q P m0 pb sb' tb lb vb Fb Vb).
Section Elt1.
Variables p s t : Z.
Variable l : list Z.
Hypothesis F : xfields n m0 p s t l.
Hypothesis O : xoff D m0 p K.
Hypothesis SA : p = pr \/ xapart n p pr.
Lemma elt_opd c m : FS 1 c m -> 0 <= c -> c + 16 <= D -> eval l < q -> opd_at m p l.
Proof.
  intros ((I1 & S1 & _) & _) H1 H2 H3. pose proof (e_ptr q P OK m0 p s t l F) as (A1 & A2 & A3). split; [exact A1|]. split; [exact A3|]. split; [apply F|]. split; [exact H3|]. split; [apply (e_arr P lay m0 D pr Dst p s t l F O SA 1 m 16 c); [lia|exact I1|exact S1|lia|lia|lia]|unfold same_or_apart, apart, xapart in *; lia].
Qed.
Lemma elt_fields c m : FS 1 c m -> xapart n p pr -> xfields n m p s t l.
Proof.
  intros ((I1 & S1 & _) & _) AP. destruct F as (F1 & F2 & F3). split; [exact F1|]. split; [exact F2|]. apply (user_at m0 D pr K Opr Bpr 1 m p); [exact I1|exact F3| |]; cbn [length]; rewrite (proj1 F2); unfold xapart, xoff in *; lia.
Qed.
End Elt1.
Section Main.
Variable w : Z.
Hypothesis Rw : 0 <= w < q.
Notation N8' := (24 + N8).
Lemma tmp_opd L v s' t' l' m : FS 1 N8' m -> L = word_of s' t' :: l' -> at_addr m (sp0 - N8') L -> limbs_ok n l' -> eval l' = v mod q -> opd_at m (sp0 - N8') l'.
Proof.
  intros ((I1 & S1 & _) & _) -> AT LO EV. pose proof (xr_room _ _ _ _ Rdy) as RM. pose proof (sp0_top P lay m0 D Rdy) as TOP. pose proof (q_pos q P OK) as Q1. pose proof (sb_pos P) as SB. pose proof Opr as OP.
  split; [lia|]. split; [lia|]. split; [exact LO|]. split; [rewrite EV; apply Z.mod_pos_bound; lia|]. split; [split; [exact (at_tail _ _ _ _ AT)|rewrite S1; lia]|]. right. unfold apart. lia.
Qed.
Lemma conv_facts (v : Z) (r other : reg) L m m' s0 : FS 1 24 m -> mem m pr = word_of s0 (192 * 2 ^ 24) -> montRes q P v L -> ConvPost P m0 D pr 1 24 pr bp m r other L m' ->
  exists l', FS 1 N8' m' /\ mem m' pr = word_of s0 (192 * 2 ^ 24) /\ regs m' r = sp0 - N8' /\ regs m' other = regs m other /\ opd_at m' (sp0 - N8') l' /\ eval l' = (v * R) mod q.
Proof.
  intros (ST & SV) HW (s' & t' & l' & E & _ & _ & _ & LO & EV) (ST' & E1 & E2 & AT & M1 & M2). pose proof Opr as OP. pose proof (xr_room _ _ _ _ Rdy) as RM. pose proof (sb_pos P) as SB.
  assert (F : FS 1 N8' m') by (split; [exact ST'|apply (saved_ext 24 m); [lia|exact M1|exact SV]]).
  exists l'. split; [exact F|]. split; [rewrite M2 by lia; exact HW|]. split; [exact E1|]. split; [exact E2|]. split; [eapply tmp_opd; eassumption|exact EV].
Qed.
Lemma toM_any p s t l v : xfields n m0 p s t l -> denotes q n s t l v -> forall m1 D' pr', 8 + sb <= D' -> xready P lay D' m1 -> xdest P lay D' m1 pr' -> xfields n m1 p s t l -> xoff D' m1 p (S n) -> (p = pr' \/ xapart n p pr') -> regs m1 RDI = pr' -> regs m1 RSI = p ->
  exists m' L, f_toMontgomery lay ra n opt m1 = Some m' /\ montRes q P v L /\ Cres D' (S n) pr' L m1 m'.
Proof.
  intros _ V m1 D' pr' H1 H2 H3 H4 H5 H6 H7 H8. pose proof (sb_pos P). apply (toMontgomery_call q P OK lay ra Hra m1 D' ltac:(lia) H2 pr' H3 p s t l v H4 V H5 H6 H7 H8 H1 N12).
Qed.
Variable f : mach -> option mach.
Variable op : Z -> Z -> Z.
Hypothesis LL : LLok f op.
Hypothesis OPr : forall x y r, op (x * r) (y * r) = op x y * r.
Hypothesis OPm : forall x y, op (x mod q) (y mod q) mod q = op x y mod q.
Hypothesis Ew : w = op va vb mod q.
Lemma goal_mont x y : x = (va * R) mod q -> y = (vb * R) mod q -> goalV w 192 (op x y).
Proof. intros -> ->. pose proof (q_pos q P OK). right. split; [reflexivity|]. rewrite OPm, OPr, Ew, Z.mul_mod_idemp_l by lia. reflexivity. Qed.
Lemma L_LL t m code : FS 1 24 m -> regs m RSI = pa -> regs m RDX = pb -> eval la < q -> eval lb < q -> goalV w t (op (eval la) (eval lb)) -> tnolab l_ret code = true -> tw lay ra (setTypeDest t ++ opL1L2 f ++ code) (Res (valRes w)) (m, None).
Proof.
  intros F E1 E2 Qa Qb HG HL. pose proof (sb_pos P). apply (b_setT t 24); [destruct HG as [[-> _] | [-> _]]; cbn [In]; tauto|lia|exact F|]. intros m' F' M' R'.
  eapply (r_LL w Rw f op t 24) with (a := la) (b := lb); [exact LL|reflexivity|lia|lia|exact F'|exact M'|apply sx32_range|rewrite R' by discriminate; exact E1|rewrite R' by discriminate; exact E2|apply (elt_opd pa sa ta la Fa Oa Sa 24); [exact F'|lia|lia|exact Qa]|apply (elt_opd pb sb' tb lb Fb Ob Sb 24); [exact F'|lia|lia|exact Qb]|exact HG|exact HL].
Qed.
Lemma L_ca m code : xapart n pa pr -> FS 1 24 m -> regs m RSI = pa -> regs m RDX = pb -> tmont tb = true -> tnolab l_ret code = true -> tw lay ra (setTypeDest 192 ++ conv_a n (f_toMontgomery lay ra n opt) ++ opL1L2 f ++ code) (Res (valRes w)) (m, None).
Proof.
  intros AP F E1 E2 Mb HL. pose proof (sb_pos P) as SB. apply (b_setT 192 24); [cbn; tauto|lia|exact F|]. intros m' F' M' R'.
  apply (b_conv_a P lay ra Hra m0 D Rdy pr K Opr Dpr Bpr _ (montRes q P va) (8 + sb) pa sa ta la Oa ltac:(lia) (toM_any pa sa ta la va Fa Va) 1%nat 24 pr bp m'); [lia|reflexivity|lia|lia|apply F'|apply (elt_fields pa sa ta la Fa Oa Sa 24); assumption|rewrite R' by discriminate; exact E1|].
  intros m2 L HR CP. destruct (conv_facts va RSI RDX L m' m2 _ F' M' HR CP) as (l' & F2 & M2 & X1 & X2 & X3 & X4).
  eapply (r_LL w Rw f op 192 N8') with (a := l') (b := lb); [exact LL|rewrite (Z.mul_comm 8), Z.add_comm, Z.add_mod, Z.mod_mul by lia; reflexivity|lia|lia|exact F2|exact M2|apply sx32_range|exact X1|rewrite X2, R' by discriminate; exact E2|exact X3|apply (elt_opd pb sb' tb lb Fb Ob Sb N8'); [exact F2|lia|lia|apply vlqB; rewrite Mb; apply orb_true_r]|apply goal_mont; [exact X4|apply vmontB, Mb]|exact HL].
Qed.
Lemma L_cb m code : xapart n pb pr -> FS 1 24 m -> regs m RSI = pa -> regs m RDX = pb -> tmont ta = true -> tnolab l_ret code = true -> tw lay ra (setTypeDest 192 ++ conv_b n (f_toMontgomery lay ra n opt) ++ opL1L2 f ++ code) (Res (valRes w)) (m, None).
Proof.
  intros AP F E1 E2 Ma HL. pose proof (sb_pos P) as SB. apply (b_setT 192 24); [cbn; tauto|lia|exact F|]. intros m' F' M' R'.
  apply (b_conv_b P lay ra Hra m0 D Rdy pr K Opr Dpr Bpr _ (montRes q P vb) (8 + sb) pb sb' tb lb Ob ltac:(lia) (toM_any pb sb' tb lb vb Fb Vb) 1%nat 24 pr bp m'); [lia|reflexivity|lia|lia|apply F'|apply (elt_fields pb sb' tb lb Fb Ob Sb 24); assumption|rewrite R' by discriminate; exact E2|].
  intros m2 L HR CP. destruct (conv_facts vb RDX RSI L m' m2 _ F' M' HR CP) as (l' & F2 & M2 & X1 & X2 & X3 & X4).
  eapply (r_LL w Rw f op 192 N8') with (a := la) (b := l'); [exact LL|rewrite (Z.mul_comm 8), Z.add_comm, Z.add_mod, Z.mod_mul by lia; reflexivity|lia|lia|exact F2|exact M2|apply sx32_range|rewrite X2, R' by discriminate; exact E1|exact X1|apply (elt_opd pa sa ta la Fa Oa Sa N8'); [exact F2|lia|lia|apply vlqA; rewrite Ma; apply orb_true_r]|exact X3|apply goal_mont; [apply vmontA, Ma|exact X4]|exact HL].
Qed.
(** long and short *)
Lemma L_LS neg pos opn m l0 code : LSok neg opn -> LSok pos op -> (forall x y, opn x (- y) = op x y) -> l0 <> l_ret -> FS 1 24 m -> regs m RSI = pa -> regs m RCX = word_of sb' tb -> tlong ta = true -> tmont ta = false -> tlong tb = false -> tnolab l_ret code = true ->
  tw lay ra (setTypeDest 128 ++ opL1S2 neg pos l0 ++ code) (Res (valRes w)) (m, None).
Proof.
  intros LN LP HO NL F E1 E2 T1 T2 T3 HL. pose proof (sb_pos P) as SB. pose proof (e_ptr q P OK m0 pa sa ta la Fa) as (A1 & A2 & A3). pose proof (q_pos q P OK) as Q1. apply (b_setT 128 24); [cbn; tauto|lia|exact F|]. intros m' F' M' R'.
  change (opL1S2 neg pos l0 ++ code) with (addi RSI 8 :: Movsx RDX RCX :: LSrest neg pos l0 ++ code). apply t_addi; [rewrite R', E1 by discriminate; lia|]. intros f1. rewrite R', E1 by discriminate. apply t_movsx. rg. rewrite R', E2 by discriminate. rewrite sx32_word by apply Fb. pose proof (Z.mod_pos_bound sb' B ltac:(reflexivity)).
  match goal with |- tw _ _ _ _ (?mm, _) => set (m1 := mm) end. assert (F1 : FS 1 24 m1) by (destruct F' as (STx & SVx); split; [unfold m1; stt STx|exact SVx]).
  eapply (r_LS w Rw HQ neg pos opn op 128 24 m1 pa la sb'); [exact LN|exact LP|exact HO|reflexivity|lia|lia|exact F1|exact M'|apply sx32_range|apply Fb|exact NL|unfold m1; rg; reflexivity|unfold m1; rg; reflexivity|apply (elt_opd pa sa ta la Fa Oa Sa 24); [exact F1|lia|lia|apply vlqA; rewrite T1; reflexivity]| |exact HL].
  left. split; [reflexivity|]. rewrite vlongA by assumption. rewrite Ew, <- (OPm va sb'), <- (OPm va vb), (vshortB T3), Z.mod_mod by lia. reflexivity.
Qed.
(** short and long *)
Lemma goal_SL : tlong ta = false -> tlong tb = true -> tmont tb = false -> goalV w 128 (op sa (eval lb)).
Proof.
  intros T1 T2 T3. pose proof (q_pos q P OK) as Q1. left. split; [reflexivity|]. rewrite vlongB by assumption. rewrite Ew, <- (OPm sa vb), <- (OPm va vb), (vshortA T1), Z.mod_mod by lia. reflexivity.
Qed.
Lemma L_SLadd m l0 code : (forall x y, op x y = x + y) -> l0 <> l_ret -> FS 1 24 m -> regs m RDX = pb -> regs m RAX = word_of sa ta -> tlong ta = false -> tlong tb = true -> tmont tb = false -> tnolab l_ret code = true ->
  tw lay ra (setTypeDest 128 ++ addS1L2 lay n l0 ++ code) (Res (valRes w)) (m, None).
Proof.
  intros HO NL F E1 E2 T1 T2 T3 HL. pose proof (sb_pos P) as SB. pose proof (e_ptr q P OK m0 pb sb' tb lb Fb) as (A1 & A2 & A3). apply (b_setT 128 24); [cbn; tauto|lia|exact F|]. intros m' F' M' R'.
  change (addS1L2 lay n l0 ++ code) with (Lea RSI (BReg RDX) 8 :: Movsx RDX RAX :: LSrest (f_rawSubLS lay n) (f_rawAddLS lay n) l0 ++ code). eapply t_lea; [unfold addr; rewrite R', E1 by discriminate; apply Z.mod_small; lia|]. apply t_movsx. rg. rewrite R', E2 by discriminate. rewrite sx32_word by apply Fa. pose proof (Z.mod_pos_bound sa B ltac:(reflexivity)).
  match goal with |- tw _ _ _ _ (?mm, _) => set (m1 := mm) end. assert (F1 : FS 1 24 m1) by (destruct F' as (STx & SVx); split; [unfold m1; stt STx|exact SVx]).
  eapply (r_LS w Rw HQ _ _ Z.sub Z.add 128 24 m1 pb lb sa); [exact LS_sub|exact LS_add|intros; ring|reflexivity|lia|lia|exact F1|exact M'|apply sx32_range|apply Fa|exact NL|unfold m1; rg; reflexivity|unfold m1; rg; reflexivity|apply (elt_opd pb sb' tb lb Fb Ob Sb 24); [exact F1|lia|lia|apply vlqB; rewrite T2; reflexivity]| |exact HL].
  rewrite Z.add_comm, <- HO. apply goal_SL; assumption.
Qed.
Lemma L_SLsub m l0 code : (forall x y, op x y = x - y) -> (sa < 0 -> xapart n pb pr) -> l0 <> l_ret -> FS 1 24 m -> regs m RDX = pb -> regs m RAX = word_of sa ta -> tlong ta = false -> tlong tb = true -> tmont tb = false -> tnolab l_ret code = true ->
  tw lay ra (setTypeDest 128 ++ subS1L2 lay ra n l0 ++ code) (Res (valRes w)) (m, None).
Proof.
  intros HO AP NL F E1 E2 T1 T2 T3 HL. pose proof (sb_pos P) as SB. apply (b_setT 128 24); [cbn; tauto|lia|exact F|]. intros m' F' M' R'.
  eapply (r_subSL w Rw HQ 128 24 m' pb lb sa ta); [reflexivity|lia|lia|exact F'|exact M'|apply sx32_range|apply Fa|exact NL|rewrite R' by discriminate; exact E1|rewrite R' by discriminate; exact E2|apply (elt_opd pb sb' tb lb Fb Ob Sb 24); [exact F'|lia|lia|apply vlqB; rewrite T2; reflexivity]|exact AP| |exact HL].
  rewrite <- HO. apply goal_SL; assumption.
Qed.
Lemma L_SS op32 op64 m l0 code : SSop op32 op64 op -> l0 <> l_ret -> FS 1 24 m -> regs m RAX = word_of sa ta -> regs m RCX = word_of sb' tb -> tlong ta = false -> tlong tb = false -> tnolab l_ret code = true ->
  tw lay ra (opS1S2 lay ra n op32 op64 l0 ++ code) (Res (valRes w)) (m, None).
Proof.
  intros SS NL F E1 E2 T1 T2 HL. pose proof (sb_pos P) as SB. pose proof (q_pos q P OK) as Q1. eapply (r_SS w Rw HQ op32 op64 op 24 m sa ta sb' tb); [exact SS|reflexivity|lia|lia|exact F|apply Fa|apply Fb|exact NL|exact E1|exact E2| |exact HL].
  rewrite Ew, <- (OPm va vb), (vshortA T1), (vshortB T2), !Z.mod_mod, OPm by lia. reflexivity.
Qed.
Lemma goal_long : tlong ta = true -> tmont ta = false -> tlong tb = true -> tmont tb = false -> goalV w 128 (op (eval la) (eval lb)).
Proof. intros T1 T2 T3 T4. left. split; [reflexivity|]. rewrite vlongA, vlongB by assumption. symmetry. exact Ew. Qed.
End Main.
(** *** the operations *)
Hypothesis NCa : tmont ta = false -> tlong tb = true -> tmont tb = true -> xapart n pa pr.
Hypothesis NCb : tlong ta = true -> tmont ta = true -> tmont tb = false -> xapart n pb pr.
Lemma t_call (Q : list Z -> Prop) g code : tw lay ra code (Res Q) (m0, None) -> g = tcall lay ra code -> exists m' L, g m0 = Some m' /\ Q L /\ Cres D K pr L m0 m'.
Proof. apply (t_finish P). Qed.
Ltac frame ST SV := split; [stt ST|exact SV].
Ltac qa T := first [apply vlqA; rewrite T; first [reflexivity|apply orb_true_r]].
Lemma addsub_pre (w : Z) code : (forall m, FS 1 24 m -> regs m RSI = pa -> regs m RDX = pb -> regs m RAX = word_of sa ta -> regs m RCX = word_of sb' tb -> tw lay ra code (Res (valRes w)) (m, None)) ->
  tw lay ra (enterOp ++ [ld RAX RSI 0; ld RCX RDX 0] ++ code) (Res (valRes w)) (m0, None).
Proof.
  intros H. pose proof (sb_pos P) as SB. pose proof (e_ptr q P OK m0 pa sa ta la Fa) as (A1 & A2 & A3). pose proof (e_ptr q P OK m0 pb sb' tb lb Fb) as (B1 & B2 & B3). pose proof (xr_room _ _ _ _ Rdy) as RM. pose proof (sp0_top P lay m0 D Rdy) as TOP.
  apply (b_enter P lay ra m0 D Rdy pr K Opr Bpr D_24). rewrite Edi. intros m ST SV RG MM. cbn [app]. pose proof (word_range sa ta TA) as WR. pose proof (word_range sb' tb TB) as WRb.
  assert (F : FS 1 24 m) by (apply (fs_mono 0 1); [lia|split; assumption]). destruct F as (STF & SVF).
  apply (t_ld lay ra _ _ _ _ pa); [rewrite RG, Esi, Z.add_0_r by discriminate; apply Z.mod_small; lia|exact A2|]. rewrite MM by (unfold xoff in Oa; lia). rewrite (e_head P m0 pa sa ta la Fa).
  apply (t_ld lay ra _ _ _ _ pb); [rg; rewrite RG, Edx, Z.add_0_r by discriminate; apply Z.mod_small; lia|exact B2|]. rg. rewrite MM by (unfold xoff in Ob; lia). rewrite (e_head P m0 pb sb' tb lb Fb).
  apply H; [split; [stt STF|exact SVF]|rg; rewrite RG by discriminate; exact Esi|rg; rewrite RG by discriminate; exact Edx|rg; reflexivity|rg; reflexivity].
Qed.
Ltac fin H := destruct H as (STF & SVF); split; [stt STF|exact SVF].
Lemma add_call : exists m' L, f_add lay ra n opt m0 = Some m' /\ valRes ((va + vb) mod q) L /\ Cres D K pr L m0 m'.
Proof.
  apply t_call with (code := asm_add lay ra n opt); [|reflexivity]. pose proof (q_pos q P OK) as Q1. set (w := (va + vb) mod q). assert (Rw : 0 <= w < q) by (apply Z.mod_pos_bound; lia).
  assert (OPr : forall x y r, x * r + y * r = (x + y) * r) by (intros; ring). assert (OPm : forall x y, (x mod q + y mod q) mod q = (x + y) mod q) by (intros; symmetry; apply Zplus_mod). assert (Ew : w = (va + vb) mod q) by reflexivity. clearbody w.
  unfold asm_add, asm_addsub. apply addsub_pre. intros m F E1 E2 E3 E4. cbn [app].
  apply t_btc; rg; rewrite E3, word_63 by exact TA; intros f T.
  - eapply t_after; [reflexivity|]. apply t_btc; rg; rewrite E4, word_63 by exact TB; intros f2 Tb; [eapply t_after; [reflexivity|]|].
    + apply t_btc; rg; rewrite E3, word_62 by exact TA; intros f3 M; [eapply t_after; [reflexivity|]|]; (apply t_btc; rg; rewrite E4, word_62 by exact TB; intros f4 Mb; [eapply t_after; [reflexivity|]|]).
      * rewrite <- (app_nil_r (opL1L2 _)). apply (L_LL w Rw _ Z.add LL_add 192); [fin F|exact E1|exact E2|apply vlqA; rewrite T; reflexivity|apply vlqB; rewrite Tb; reflexivity|apply (goal_mont w Z.add OPr OPm Ew); [apply vmontA|apply vmontB]; assumption|reflexivity].
      * apply (L_cb w Rw _ Z.add LL_add OPr OPm Ew); [apply NCb; assumption|fin F|exact E1|exact E2|exact M|reflexivity].
      * apply (L_ca w Rw _ Z.add LL_add OPr OPm Ew); [apply NCa; assumption|fin F|exact E1|exact E2|exact Mb|reflexivity].
      * apply (L_LL w Rw _ Z.add LL_add 128); [fin F|exact E1|exact E2|apply vlqA; rewrite T; reflexivity|apply vlqB; rewrite Tb; reflexivity|apply (goal_long w Z.add Ew); assumption|reflexivity].
    + apply t_btc; rg; rewrite E3, word_62 by exact TA; intros f3 M; [eapply t_after; [reflexivity|]|].
      * apply t_btc; rg; rewrite E4, word_62 by exact TB; intros f4 Mb; [eapply t_after; [reflexivity|]|].
        -- apply (L_LL w Rw _ Z.add LL_add 192); [fin F|exact E1|exact E2|apply vlqA; rewrite T; reflexivity|apply vlqB; rewrite Mb; apply orb_true_r|apply (goal_mont w Z.add OPr OPm Ew); [apply vmontA|apply vmontB]; assumption|reflexivity].
        -- apply (L_cb w Rw _ Z.add LL_add OPr OPm Ew); [apply NCb; assumption|fin F|exact E1|exact E2|exact M|reflexivity].
      * apply (L_LS w Rw Z.add OPm Ew _ _ Z.sub); [exact LS_sub|exact LS_add|intros; ring|discriminate|fin F|exact E1|exact E4|exact T|exact M|exact Tb|reflexivity].
  - apply t_btc; rg; rewrite E4, word_63 by exact TB; intros f2 Tb; [eapply t_after; [reflexivity|]|].
    + apply t_btc; rg; rewrite E4, word_62 by exact TB; intros f3 Mb; [eapply t_after; [reflexivity|]|].
      * apply t_btc; rg; rewrite E3, word_62 by exact TA; intros f4 M; [eapply t_after; [reflexivity|]|].
        -- apply (L_LL w Rw _ Z.add LL_add 192); [fin F|exact E1|exact E2|apply vlqA; rewrite M; apply orb_true_r|apply vlqB; rewrite Tb; reflexivity|apply (goal_mont w Z.add OPr OPm Ew); [apply vmontA|apply vmontB]; assumption|reflexivity].
        -- apply (L_ca w Rw _ Z.add LL_add OPr OPm Ew); [apply NCa; assumption|fin F|exact E1|exact E2|exact Mb|reflexivity].
      * apply (L_SLadd w Rw Z.add OPm Ew); [reflexivity|discriminate|fin F|exact E2|exact E3|exact T|exact Tb|exact Mb|reflexivity].
    + apply (L_SS w Rw Z.add OPm Ew Add32 Iadd); [exact SS_add|discriminate|fin F|exact E3|exact E4|exact T|exact Tb|reflexivity].
Qed.
Lemma sub_call : (tlong ta = false -> tlong tb = true -> tmont tb = false -> sa < 0 -> xapart n pb pr) -> exists m' L, f_sub lay ra n opt m0 = Some m' /\ valRes ((va - vb) mod q) L /\ Cres D K pr L m0 m'.
Proof.
  intros NCs. apply t_call with (code := asm_sub lay ra n opt); [|reflexivity]. pose proof (q_pos q P OK) as Q1. set (w := (va - vb) mod q). assert (Rw : 0 <= w < q) by (apply Z.mod_pos_bound; lia).
  assert (OPr : forall x y r, x * r - y * r = (x - y) * r) by (intros; ring). assert (OPm : forall x y, (x mod q - y mod q) mod q = (x - y) mod q) by (intros; symmetry; apply Zminus_mod). assert (Ew : w = (va - vb) mod q) by reflexivity. clearbody w.
  unfold asm_sub, asm_addsub. apply addsub_pre. intros m F E1 E2 E3 E4. cbn [app].
  apply t_btc; rg; rewrite E3, word_63 by exact TA; intros f T.
  - eapply t_after; [reflexivity|]. apply t_btc; rg; rewrite E4, word_63 by exact TB; intros f2 Tb; [eapply t_after; [reflexivity|]|].
    + apply t_btc; rg; rewrite E3, word_62 by exact TA; intros f3 M; [eapply t_after; [reflexivity|]|]; (apply t_btc; rg; rewrite E4, word_62 by exact TB; intros f4 Mb; [eapply t_after; [reflexivity|]|]).
      * rewrite <- (app_nil_r (opL1L2 _)). apply (L_LL w Rw _ Z.sub LL_sub 192); [fin F|exact E1|exact E2|apply vlqA; rewrite T; reflexivity|apply vlqB; rewrite Tb; reflexivity|apply (goal_mont w Z.sub OPr OPm Ew); [apply vmontA|apply vmontB]; assumption|reflexivity].
      * apply (L_cb w Rw _ Z.sub LL_sub OPr OPm Ew); [apply NCb; assumption|fin F|exact E1|exact E2|exact M|reflexivity].
      * apply (L_ca w Rw _ Z.sub LL_sub OPr OPm Ew); [apply NCa; assumption|fin F|exact E1|exact E2|exact Mb|reflexivity].
      * apply (L_LL w Rw _ Z.sub LL_sub 128); [fin F|exact E1|exact E2|apply vlqA; rewrite T; reflexivity|apply vlqB; rewrite Tb; reflexivity|apply (goal_long w Z.sub Ew); assumption|reflexivity].
    + apply t_btc; rg; rewrite E3, word_62 by exact TA; intros f3 M; [eapply t_after; [reflexivity|]|].
      * apply t_btc; rg; rewrite E4, word_62 by exact TB; intros f4 Mb; [eapply t_after; [reflexivity|]|].
        -- apply (L_LL w Rw _ Z.sub LL_sub 192); [fin F|exact E1|exact E2|apply vlqA; rewrite T; reflexivity|apply vlqB; rewrite Mb; apply orb_true_r|apply (goal_mont w Z.sub OPr OPm Ew); [apply vmontA|apply vmontB]; assumption|reflexivity].
        -- apply (L_cb w Rw _ Z.sub LL_sub OPr OPm Ew); [apply NCb; assumption|fin F|exact E1|exact E2|exact M|reflexivity].
      * apply (L_LS w Rw Z.sub OPm Ew _ _ Z.add); [exact LS_add|exact LS_sub|intros; ring|discriminate|fin F|exact E1|exact E4|exact T|exact M|exact Tb|reflexivity].
  - apply t_btc; rg; rewrite E4, word_63 by exact TB; intros f2 Tb; [eapply t_after; [reflexivity|]|].
    + apply t_btc; rg; rewrite E4, word_62 by exact TB; intros f3 Mb; [eapply t_after; [reflexivity|]|].
      * apply t_btc; rg; rewrite E3, word_62 by exact TA; intros f4 M; [eapply t_after; [reflexivity|]|].
        -- apply (L_LL w Rw _ Z.sub LL_sub 192); [fin F|exact E1|exact E2|apply vlqA; rewrite M; apply orb_true_r|apply vlqB; rewrite Tb; reflexivity|apply (goal_mont w Z.sub OPr OPm Ew); [apply vmontA|apply vmontB]; assumption|reflexivity].
        -- apply (L_ca w Rw _ Z.sub LL_sub OPr OPm Ew); [apply NCa; assumption|fin F|exact E1|exact E2|exact Mb|reflexivity].
      * apply (L_SLsub w Rw Z.sub OPm Ew); [reflexivity|apply NCs; assumption|discriminate|fin F|exact E2|exact E3|exact T|exact Tb|exact Mb|reflexivity].
    + apply (L_SS w Rw Z.sub OPm Ew Sub32 Isub); [exact SS_sub|discriminate|fin F|exact E3|exact E4|exact T|exact Tb|reflexivity].
Qed.
End Elts.
End Op.
