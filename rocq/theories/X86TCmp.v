(** The comparisons rgt, rlt and req on the machine. *)
From Coq Require Import ZArith Znumtheory List Bool Arith Lia.
From Verif Require Import Limbs LimbsFacts Gen GenFacts Spec Raw RawFacts Fr FrSpec X86 X86Gen X86Sim X86Mont X86Call X86Routines X86Raw X86RawFacts X86RawFacts2 X86RawFacts3 X86Final X86T X86TWords X86TFacts X86THelp X86THelp2 X86THelp3 X86TSpec X86TInv X86TConv X86TFrame X86TLoop.
Import ListNotations.
Open Scope Z_scope.

Section Jumps.
Variable lay : sym -> Z.
Variable ra : Z.
Lemma t_over l a b Q m : tnolab l a = true -> tw lay ra b Q (m, Some l) -> tw lay ra (a ++ b) Q (m, Some l).
Proof. intros H1 H2. apply tw_app, t_skip; assumption. Qed.
Lemma t_miss l l' code Q m : Nat.eqb l l' = false -> tw lay ra code Q (m, Some l) -> tw lay ra (lab l' :: code) Q (m, Some l).
Proof. intros H1 H2. eapply tw_cons; [|exact H2]. cbn [lab tstep step]. rewrite H1. reflexivity. Qed.
Lemma signL_nolab n r pos neg l : tnolab l (map X (signL n r pos neg)) = true.
Proof. rewrite tnolab_X. apply nolab_flat. intros i. destruct (0 <? n - i - 1)%nat; reflexivity. Qed.
Lemma cmpraw_nolab n j l : (forall i, nolab l (j i) = true) -> tnolab l (map X (cmpraw n j)) = true.
Proof. intros H. rewrite tnolab_X. apply nolab_flat. intros i. cbn [app nolab]. apply H. Qed.
End Jumps.

Lemma signed_short q s : 2 ^ 32 < q -> is_int32 s -> signed q (s mod q) = s.
Proof.
  intros Hq Hs. unfold is_int32 in Hs. unfold signed. assert (2 ^ 31 <= q / 2) by (change (2 ^ 31) with (2 ^ 32 / 2); apply Z.div_le_mono; lia). assert (H2 : q / 2 * 2 <= q) by (pose proof (Z.mul_div_le q 2 ltac:(lia)); lia).
  destruct (Z_lt_le_dec s 0).
  - replace (s mod q) with (s + q) by (rewrite <- (Z.mod_add s 1 q), Z.mod_small by lia; lia). destruct (Z.leb_spec (s + q) (q / 2)); lia.
  - rewrite Z.mod_small by lia. destruct (Z.leb_spec s (q / 2)); lia.
Qed.

Section Cmp.
Variable q : Z.
Variable P : zq.
Hypothesis OK : zq_ok q P.
Notation n := (p_n64 P).
Notation opt := (p_opt P).
Notation sb := (stackBytes n opt).
Variable lay : sym -> Z.
Variable ra : Z.
Hypothesis Hra : 0 <= ra < B.
Variable m0 : mach.
Variable D : Z.
Hypothesis HD : sb + 16 * Z.of_nat (S n) + 64 <= D.
Hypothesis Rdy : xready P lay D m0.
Notation sp0 := (regs m0 RSP).
Notation R := (Rad n).
Notation N8 := (8 * Z.of_nat (S n)).
Notation bp := (sp0 - 24).
Lemma D_24 : 24 <= D. Proof. pose proof (sb_pos P). lia. Qed.
Lemma Opr0 : 0 + 8 * Z.of_nat 0 <= sp0 - D \/ sp0 + 8 <= 0. Proof. left. pose proof (xr_room _ _ _ _ Rdy). lia. Qed.
Lemma Dpr0 : forall s, lay s + 8 * Z.of_nat (length (data P s)) <= 0 \/ 0 + 8 * Z.of_nat 0 <= lay s.
Proof. intros s. right. destruct (xr_data _ _ _ _ Rdy s) as [(H & _) _]. lia. Qed.
Lemma Bpr0 : 0%nat <> 0%nat -> 0 <= 0 /\ 0 mod 8 = 0 /\ 0 + 8 * Z.of_nat 0 <= B. Proof. intros H. congruence. Qed.
Notation Inv := (Inv m0 D 0 0).
Notation St := (St m0 D 0 0).
Notation saved := (saved m0).
Ltac inv1 := first [assumption | apply inv_setf | apply inv_setr; [|try lia|nin'] | apply (inv_stk m0 D 0 0 Opr0 Bpr0); [|try lia|try lia] ].
Ltac inv := repeat inv1.
Ltac stt H := let H1 := fresh in let H2 := fresh in let H3 := fresh in let H4 := fresh in pose proof H as (H1 & H2 & H3 & H4); split; [inv|split; [rg; try lia|split; [rg; try lia|rg; try lia]]].
Definition FS (c : Z) (m : mach) : Prop := St c (regs m0 RDI) bp m /\ saved m.
(** the result: a truth value in rax, nothing but the stack written *)
Definition BRes (b : bool) (m' : mach) : Prop := regs m' RAX = Z.b2z b /\ xframe D 0 0 m0 m' /\ regs m' RDI = regs m0 RDI.
Definition Res (b : bool) (s : X86RawFacts.st) : Prop := snd s = Some l_ret /\ regs (fst s) RSP = sp0 /\ mem (fst s) sp0 = mem m0 sp0 /\ BRes b (setr (fst s) RSP ((sp0 + 8) mod B)).
Lemma saved_ext c m m' : 24 <= c -> (forall x, sp0 - c <= x < sp0 + 8 -> mem m' x = mem m x) -> saved m -> saved m'.
Proof. intros H E (H1 & H2 & H3). split; [rewrite E by lia; exact H1|]. split; [rewrite E by lia; exact H2|rewrite E by lia; exact H3]. Qed.
(** *** the ends *)
Lemma b_end b c m code : FS c m -> regs m RAX = Z.b2z b -> tnolab l_ret code = true -> tw lay ra (leaveRet ++ code) (Res b) (m, None).
Proof.
  intros (ST & SV) E HL. pose proof (xr_room _ _ _ _ Rdy) as RM. pose proof D_24. apply (b_leave P lay ra m0 D Rdy 0 0 Bpr0 D_24 0 c m code); [exact ST|exact SV|]. intros m' ((W & M & RI) & E1 & E2 & E3) M' A _ _.
  apply t_ret; [exact HL|]. split; [reflexivity|]. cbn [fst snd]. split; [lia|]. split; [apply M; lia|]. split; [cbn [setr regs]; rewrite rupd_neq by discriminate; congruence|]. split; [|cbn [setr regs]; rewrite rupd_neq by discriminate; exact E2].
  pose proof B_pos. split; [apply words_setr; [exact W|apply Z.mod_pos_bound; lia]|]. split; [exact M|]. split; [|cbn [setr regs]; apply rupd_eq].
  intros r Hr. cbn [setr regs]. destruct (reg_dec r RSP) as [->|Nr]; [exfalso; unfold callee_saved in Hr; cbn [In] in Hr; intuition discriminate|]. rewrite rupd_neq by exact Nr. destruct (reg_dec r RBP) as [->|Nb]; [exact E3|]. apply RI. unfold callee_saved in Hr. cbn [In] in *. intuition congruence.
Qed.
Lemma b_ret0 c m code : FS c m -> tnolab l_ret code = true -> tw lay ra (zero RAX :: leaveRet ++ code) (Res false) (m, None).
Proof. intros (ST & SV) HL. pose proof B_pos. apply t_zero. intros f. apply (b_end false c); [split; [stt ST|exact SV]|rg; reflexivity|exact HL]. Qed.
Lemma b_ret1 c m code : FS c m -> tnolab l_ret code = true -> tw lay ra (movi RAX 1 :: leaveRet ++ code) (Res true) (m, None).
Proof. intros (ST & SV) HL. assert (1 < B) by reflexivity. apply t_movi. apply (b_end true c); [split; [stt ST|exact SV]|rg; reflexivity|exact HL]. Qed.
(** *** operands *)
Definition hold (m : mach) (p v : Z) : Prop := 0 <= p /\ X86RawFacts.ptr (p + 8) n /\ vals m (p + 8) n = v.
Definition held (c : Z) (m : mach) (p v : Z) : Prop := hold m p v /\ ((sp0 - c <= p /\ p + N8 <= sp0) \/ xoff D m0 p (S n)).
Lemma hold_ext m m' p v : mem m' = mem m -> hold m p v -> hold m' p v.
Proof. intros E (H1 & H2 & H3). split; [exact H1|]. split; [exact H2|]. unfold vals in *. rewrite E. exact H3. Qed.
Lemma hold_ext' m m' p v : (forall x, p <= x < p + N8 -> mem m' x = mem m x) -> hold m p v -> hold m' p v.
Proof. intros E (H1 & H2 & H3). split; [exact H1|]. split; [exact H2|]. rewrite <- H3. unfold vals. apply es_ext. intros j Hj. apply E. lia. Qed.
Lemma fields_at m p s t l : Inv m -> xfields n m0 p s t l -> xoff D m0 p (S n) -> xfields n m p s t l.
Proof.
  intros I1 F O. destruct F as (F1 & F2 & F3). split; [exact F1|]. split; [exact F2|]. apply (user_at m0 D 0 0 Opr0 Bpr0 0 m p); [exact I1|exact F3|cbn [length]; rewrite (proj1 F2); exact O|right; destruct F3 as (H & _); lia].
Qed.
Lemma hold_of m p w l : limbs_ok n l -> at_addr m p (w :: l) -> hold m p (eval l).
Proof. intros L A. destruct (at_vals m (p + 8) l n L (at_tail _ _ _ _ A)) as [H1 H2]. split; [apply A|]. split; assumption. Qed.
Lemma held_user c m p s t l : Inv m -> xfields n m0 p s t l -> xoff D m0 p (S n) -> held c m p (eval l).
Proof. intros I1 F O. split; [|right; exact O]. pose proof (fields_at m p s t l I1 F O) as (F1 & F2 & F3). exact (hold_of _ _ _ _ F2 F3). Qed.
(** a conversion [f] of the element at [p] into limbs with value [x] *)
Definition RSx (x : Z) (L : list Z) : Prop := exists w l', L = w :: l' /\ limbs_ok n l' /\ eval l' = x.
Definition CV (f : mach -> option mach) (p s t : Z) (l : list Z) (x : Z) : Prop :=
  forall m1 D' pr', 8 + sb <= D' -> xready P lay D' m1 -> xdest P lay D' m1 pr' -> xfields n m1 p s t l -> xoff D' m1 p (S n) -> (p = pr' \/ xapart n p pr') -> regs m1 RDI = pr' -> regs m1 RSI = p ->
  exists m' L, f m1 = Some m' /\ RSx x L /\ Cres D' (S n) pr' L m1 m'.
Section Conv.
Variables (f : mach -> option mach) (p s t : Z) (l : list Z) (x : Z).
Hypothesis F : xfields n m0 p s t l.
Hypothesis O : xoff D m0 p (S n).
Hypothesis Hf : CV f p s t l x.
Variables (c : Z) (m : mach) (rest : list tinstr) (Q : X86RawFacts.st -> Prop).
Hypothesis C1 : c mod 8 = 0.
Hypothesis C2 : 24 <= c.
Hypothesis C3 : c + N8 + 32 + sb <= D.
Hypothesis HS : FS c m.
Notation tmp := (sp0 - (c + N8)).
Definition after_conv (r other : reg) (m' : mach) : Prop := FS (c + N8) m' /\ regs m' r = tmp /\ regs m' other = regs m other /\ held (c + N8) m' tmp x /\ forall p' v', held c m p' v' -> held (c + N8) m' p' v'.
Lemma conv_post r other L m' : RSx x L -> ConvPost P m0 D 0 0 c (regs m0 RDI) bp m r other L m' -> after_conv r other m'.
Proof.
  intros (w & l' & -> & L1 & L2) (ST' & E1 & E2 & AT & M1 & M2). pose proof D_24. pose proof (sb_pos P). pose proof (xr_room _ _ _ _ Rdy).
  split; [split; [exact ST'|eapply saved_ext; [exact C2|exact M1|apply HS]]|]. split; [exact E1|]. split; [exact E2|]. split; [split; [rewrite <- L2; exact (hold_of _ _ _ _ L1 AT)|left; lia]|].
  intros p' v' [X1 X2]. split; [|destruct X2 as [X2|X2]; [left; lia|right; exact X2]]. eapply hold_ext'; [|exact X1]. intros y Hy. unfold xoff in X2. destruct X2 as [X2|X2]; [apply M1; lia|apply M2; lia].
Qed.
Lemma k_a : regs m RSI = p -> (forall m', after_conv RSI RDX m' -> tw lay ra rest Q (m', None)) -> tw lay ra (conv_a n f ++ rest) Q (m, None).
Proof.
  intros E H. pose proof (sb_pos P). destruct HS as (ST & SV). apply (b_conv_a P lay ra Hra m0 D Rdy 0 0 Opr0 Dpr0 Bpr0 f (RSx x) (8 + sb) p s t l O ltac:(lia) Hf 0 c (regs m0 RDI) bp m); [lia|exact C1|lia|lia|exact ST|apply fields_at; [apply ST|exact F|exact O]|exact E|].
  intros m' L HL HP. apply H. exact (conv_post _ _ _ _ HL HP).
Qed.
Lemma k_b : regs m RDX = p -> (forall m', after_conv RDX RSI m' -> tw lay ra rest Q (m', None)) -> tw lay ra (conv_b n f ++ rest) Q (m, None).
Proof.
  intros E H. pose proof (sb_pos P). destruct HS as (ST & SV). apply (b_conv_b P lay ra Hra m0 D Rdy 0 0 Opr0 Dpr0 Bpr0 f (RSx x) (8 + sb) p s t l O ltac:(lia) Hf 0 c (regs m0 RDI) bp m); [lia|exact C1|lia|lia|exact ST|apply fields_at; [apply ST|exact F|exact O]|exact E|].
  intros m' L HL HP. apply H. exact (conv_post _ _ _ _ HL HP).
Qed.
End Conv.
Section CVs.
Hypothesis HQ : 2 ^ 32 < q.
Hypothesis N12 : neededFor n opt <> 12%nat.
Hypothesis N7 : n <> 7%nat.
Variables (p s t : Z) (l : list Z) (v : Z).
Hypothesis V : denotes q n s t l v.
Lemma cv_long : CV (f_toLongNormal lay ra n opt) p s t l v.
Proof.
  intros m1 D' pr' H1 H2 H3 H4 H5 H6 H7 H8. pose proof (sb_pos P). destruct (toLongNormal_call q P OK lay ra Hra m1 D' ltac:(lia) H2 pr' H3 p s t l v H4 V H5 H6 H7 H8 H1 HQ N12 N7) as (m' & L & E & (s' & l' & -> & _ & L1 & L2) & C).
  exists m', (word_of s' LONG :: l'). split; [exact E|]. split; [exists (word_of s' LONG), l'; auto|exact C].
Qed.
Lemma cv_norm : tlong t = true -> CV (f_toNormal lay ra n opt) p s t l v.
Proof.
  intros T m1 D' pr' H1 H2 H3 H4 H5 H6 H7 H8. pose proof (sb_pos P). destruct (toNormal_call q P OK lay ra Hra m1 D' ltac:(lia) H2 pr' H3 p s t l v H4 V H5 H6 H7 H8 H1 N12 N7) as (m' & L & E & (s' & t' & l' & -> & _ & _ & _ & L1 & L2 & _) & C).
  exists m', (word_of s' t' :: l'). split; [exact E|]. split; [exists (word_of s' t'), l'; split; [reflexivity|split; [exact L1|apply L2, T]]|exact C].
Qed.
Lemma cv_mont : CV (f_toMontgomery lay ra n opt) p s t l ((v * R) mod q).
Proof.
  intros m1 D' pr' H1 H2 H3 H4 H5 H6 H7 H8. pose proof (sb_pos P). destruct (toMontgomery_call q P OK lay ra Hra m1 D' ltac:(lia) H2 pr' H3 p s t l v H4 V H5 H6 H7 H8 H1 N12) as (m' & L & E & (s' & t' & l' & -> & _ & _ & _ & L1 & L2) & C).
  exists m', (word_of s' t' :: l'). split; [exact E|]. split; [exists (word_of s' t'), l'; auto|exact C].
Qed.
End CVs.
(** *** the loops *)
Lemma fs_rax c m m' : FS c m -> onlyrax m m' -> FS c m'.
Proof.
  intros ((I1 & S1 & S2 & S3) & (V1 & V2 & V3)) (M & RG & RX). destruct I1 as ((W1 & W2) & MI & RI). split; [split; [|split; [rewrite RG by discriminate; exact S1|split; rewrite RG by discriminate; assumption]]|split; [|split]; rewrite M; assumption].
  split; [split; [intros r; destruct (reg_dec r RAX) as [->|Nr]; [exact RX|rewrite RG by exact Nr; apply W1]|intros x; rewrite M; apply W2]|]. split; [intros x; rewrite M; apply MI|]. intros r Hr. rewrite RG; [apply RI, Hr|]. intros ->. cbn [In] in Hr. intuition discriminate.
Qed.
Lemma fs_words c m : FS c m -> words m. Proof. intros ((I1 & _) & _). apply I1. Qed.
Lemma half_at c m : FS c m -> X86RawFacts.ptr (lay Shalf) n /\ vals m (lay Shalf) n = q / 2.
Proof.
  intros ((I1 & _) & _). pose proof (data_at P lay m0 D Rdy 0 0 Opr0 Dpr0 Bpr0 0 m Shalf (le_n 0) I1) as A. destruct (half_ok q P OK) as [H1 H2]. destruct (at_vals _ _ _ _ H1 A) as [H3 H4]. split; [exact H3|]. cbn [data] in H4. rewrite H4. exact H2.
Qed.
Definition state (c : Z) (m : mach) (pa pb va vb : Z) : Prop := FS c m /\ regs m RSI = pa /\ regs m RDX = pb /\ hold m pa va /\ hold m pb vb.
Lemma state_rax c m m' pa pb va vb : state c m pa pb va vb -> onlyrax m m' -> state c m' pa pb va vb.
Proof.
  intros (H1 & H2 & H3 & H4 & H5) O. pose proof O as (M & RG & _). split; [exact (fs_rax _ _ _ H1 O)|]. split; [rewrite RG by discriminate; exact H2|]. split; [rewrite RG by discriminate; exact H3|]. split; eapply hold_ext; try eassumption.
Qed.
Lemma t_sign c m pa pb va vb (sel : bool) pos neg rest Q : state c m pa pb va vb ->
  (forall m', state c m' pa pb va vb -> tw lay ra rest Q (m', Some (if (if sel then va else vb) <=? q / 2 then pos else neg))) -> tw lay ra (map X (signL n (if sel then RSI else RDX) pos neg) ++ rest) Q (m, None).
Proof.
  intros S H. pose proof S as (F & E1 & E2 & (A1 & A2 & A3) & (B1 & B2 & B3)). destruct (half_at _ _ F) as [Ph Vh]. apply t_X.
  eapply ww_mono; [|apply (sign_loop lay n m (fs_words _ _ F) (if sel then RSI else RDX) (if sel then pa else pb) pos neg (N1 q P OK)); destruct sel; try assumption; discriminate].
  intros [m' sk] [O E]. cbn [fst snd] in *. subst sk. rewrite Vh. destruct sel; rewrite ?A3, ?B3; apply H; exact (state_rax _ _ _ _ _ _ _ S O).
Qed.
Section Tails.
Variables (c : Z) (m : mach) (pa pb va vb : Z).
Hypothesis Ra : 0 <= va < q.
Hypothesis Rb : 0 <= vb < q.
Hypothesis S0 : state c m pa pb va vb.
Definition tailGt : list tinstr := map X (signL n RSI 50 51) ++ [lab 50] ++ map X (signL n RDX 52 54) ++ [lab 51] ++ map X (signL n RDX 53 52) ++
  [lab 52] ++ map X (cmpraw n (fun i => J Cc 54%nat :: if (0 <? i)%nat then [J Cnz 53%nat] else [])) ++ ret0 ++ ret1.
Definition tailLt : list tinstr := map X (signL n RSI 50 51) ++ [lab 50] ++ map X (signL n RDX 52 53) ++ [lab 51] ++ map X (signL n RDX 54 52) ++
  [lab 52] ++ map X (cmpraw n (fun i => [J Cc 53%nat; J Cnz 54%nat])) ++ ret0 ++ ret1.
Lemma end53 b m' : FS c m' -> b = false -> tw lay ra (ret0 ++ ret1) (Res b) (m', Some 53%nat) /\ tw lay ra (ret0 ++ ret1) (Res b) (m', None).
Proof. intros F ->. unfold ret0. cbn [app]. split; [apply t_hit|apply t_lab]; eapply b_ret0; try exact F; reflexivity. Qed.
Lemma end54 b m' : FS c m' -> b = true -> tw lay ra (ret0 ++ ret1) (Res b) (m', Some 54%nat).
Proof. intros F ->. eapply t_after; [reflexivity|]. rewrite <- (app_nil_r leaveRet). eapply b_ret1; [exact F|reflexivity]. Qed.
Lemma skipGt l m' Q : l = 53%nat \/ l = 54%nat -> tw lay ra (ret0 ++ ret1) Q (m', Some l) -> tw lay ra ([lab 52] ++ map X (cmpraw n (fun i => J Cc 54%nat :: if (0 <? i)%nat then [J Cnz 53%nat] else [])) ++ ret0 ++ ret1) Q (m', Some l).
Proof. intros Hl H. apply t_over; [destruct Hl; subst l; reflexivity|]. apply t_over; [apply cmpraw_nolab; intros i; destruct (0 <? i)%nat; reflexivity|exact H]. Qed.
Lemma skipLt l m' Q : l = 53%nat \/ l = 54%nat -> tw lay ra (ret0 ++ ret1) Q (m', Some l) -> tw lay ra ([lab 52] ++ map X (cmpraw n (fun i => [J Cc 53%nat; J Cnz 54%nat])) ++ ret0 ++ ret1) Q (m', Some l).
Proof. intros Hl H. apply t_over; [destruct Hl; subst l; reflexivity|]. apply t_over; [apply cmpraw_nolab; reflexivity|exact H]. Qed.
Lemma rawGt b m' : state c m' pa pb va vb -> b = (vb <? va) -> tw lay ra ([lab 52] ++ map X (cmpraw n (fun i => J Cc 54%nat :: if (0 <? i)%nat then [J Cnz 53%nat] else [])) ++ ret0 ++ ret1) (Res b) (m', Some 52%nat).
Proof.
  intros S Eb. pose proof S as (F & E1 & E2 & (A1 & A2 & A3) & (B1 & B2 & B3)). cbn [app]. apply t_hit, t_X.
  eapply ww_mono; [|apply (raw_loop lay n m' (fs_words _ _ F) pa pb 54%nat 53%nat [] (fun _ => None) (N1 q P OK) E1 E2 A1 B1 A2 B2); reflexivity].
  intros [m2 sk] [O E]. cbn [fst snd] in *. rewrite A3, B3 in E. pose proof (fs_rax _ _ _ F O) as F2. destruct (Z.ltb_spec vb va) as [L|L].
  - destruct E as [[_ ->]|[[E _]|[E _]]]; try lia. apply end54; assumption.
  - destruct E as [[E _]|[[_ [-> | ->]]|[_ ->]]]; try lia; apply (end53 b m2); assumption.
Qed.
Lemma rawLt b m' : state c m' pa pb va vb -> b = (va <? vb) -> tw lay ra ([lab 52] ++ map X (cmpraw n (fun i => [J Cc 53%nat; J Cnz 54%nat])) ++ ret0 ++ ret1) (Res b) (m', Some 52%nat).
Proof.
  intros S Eb. pose proof S as (F & E1 & E2 & (A1 & A2 & A3) & (B1 & B2 & B3)). cbn [app]. apply t_hit, t_X.
  assert (EC : cmpraw n (fun i => [J Cc 53%nat; J Cnz 54%nat]) = cmpraw n (fun i => J Cc 53%nat :: if (0 <? i)%nat then [J Cnz 54%nat] else [J Cnz 54%nat])). { unfold cmpraw. apply flat_map_ext. intros i. destruct (0 <? n - i - 1)%nat; reflexivity. }
  rewrite EC. eapply ww_mono; [|apply (raw_loop lay n m' (fs_words _ _ F) pa pb 53%nat 54%nat [J Cnz 54%nat] (fun z => if z then None else Some 54%nat) (N1 q P OK) E1 E2 A1 B1 A2 B2); [|reflexivity]].
  - intros [m2 sk] [O E]. cbn [fst snd] in *. rewrite A3, B3 in E. pose proof (fs_rax _ _ _ F O) as F2. destruct (Z.ltb_spec va vb) as [L|L].
    + destruct E as [[E _]|[[_ [-> | ->]]|[E _]]]; try lia; apply end54; assumption.
    + destruct E as [[_ ->]|[[E _]|[_ ->]]]; try lia; apply (end53 b m2); assumption.
  - intros m1. cbn [run step]. cbn [holds_cond]. destruct (zf (fl m1)); reflexivity.
Qed.
Ltac sg := unfold signed; repeat match goal with |- context [if ?x <=? ?y then _ else _] => destruct (Z.leb_spec x y) end; try lia.
Lemma tail_gt : tw lay ra tailGt (Res (signed q vb <? signed q va)) (m, None).
Proof.
  unfold tailGt. apply (t_sign c m pa pb va vb true); [exact S0|]. intros m1 S1. cbv iota. destruct (Z.leb_spec va (q / 2)) as [La|La].
  - cbn [app]. apply t_hit. apply (t_sign c m1 pa pb va vb false); [exact S1|]. intros m2 S2. cbv iota. destruct (Z.leb_spec vb (q / 2)) as [Lb|Lb].
    + apply t_miss; [reflexivity|]. apply t_over; [apply signL_nolab|]. apply rawGt; [exact S2|]. sg.
    + apply t_miss; [reflexivity|]. apply t_over; [apply signL_nolab|]. apply skipGt; [right; reflexivity|]. apply end54; [apply S2|]. apply Z.ltb_lt. sg.
  - cbn [app]. apply t_miss; [reflexivity|]. apply t_over; [apply signL_nolab|]. apply t_hit. apply (t_sign c m1 pa pb va vb false); [exact S1|]. intros m2 S2. cbv iota. destruct (Z.leb_spec vb (q / 2)) as [Lb|Lb].
    + apply skipGt; [left; reflexivity|]. apply (end53 _ m2); [apply S2|]. apply Z.ltb_ge. sg.
    + apply rawGt; [exact S2|]. sg.
Qed.
Lemma tail_lt : tw lay ra tailLt (Res (signed q va <? signed q vb)) (m, None).
Proof.
  unfold tailLt. apply (t_sign c m pa pb va vb true); [exact S0|]. intros m1 S1. cbv iota. destruct (Z.leb_spec va (q / 2)) as [La|La].
  - cbn [app]. apply t_hit. apply (t_sign c m1 pa pb va vb false); [exact S1|]. intros m2 S2. cbv iota. destruct (Z.leb_spec vb (q / 2)) as [Lb|Lb].
    + apply t_miss; [reflexivity|]. apply t_over; [apply signL_nolab|]. apply rawLt; [exact S2|]. sg.
    + apply t_miss; [reflexivity|]. apply t_over; [apply signL_nolab|]. apply skipLt; [left; reflexivity|]. apply (end53 _ m2); [apply S2|]. apply Z.ltb_ge. sg.
  - cbn [app]. apply t_miss; [reflexivity|]. apply t_over; [apply signL_nolab|]. apply t_hit. apply (t_sign c m1 pa pb va vb false); [exact S1|]. intros m2 S2. cbv iota. destruct (Z.leb_spec vb (q / 2)) as [Lb|Lb].
    + apply skipLt; [right; reflexivity|]. apply end54; [apply S2|]. apply Z.ltb_lt. sg.
    + apply rawLt; [exact S2|]. sg.
Qed.
End Tails.
(** *** the operations *)
Section Main.
Hypothesis HQ : 2 ^ 32 < q.
Hypothesis N12 : neededFor n opt <> 12%nat.
Hypothesis N7 : n <> 7%nat.
Variables pa sa ta : Z.
Variable la : list Z.
Variable va : Z.
Hypothesis Fa : xfields n m0 pa sa ta la.
Hypothesis Va : denotes q n sa ta la va.
Hypothesis Oa : xoff D m0 pa (S n).
Hypothesis Esi : regs m0 RSI = pa.
Variables pb sb' tb : Z.
Variable lb : list Z.
Variable vb : Z.
Hypothesis Fb : xfields n m0 pb sb' tb lb.
Hypothesis Vb : denotes q n sb' tb lb vb.
Hypothesis Ob : xoff D m0 pb (S n).
Hypothesis Edx : regs m0 RDX = pb.
Notation TA := (e_type q P sa ta la va Va).
Notation vlongA := (v_long q P m0 pa sa ta la va Fa Va).
Notation vshortA := (v_short q P m0 pa sa ta la va Fa Va).
Notation vmontA := (v_mont q P m0 pa sa ta la va Fa Va).
Notation TB := (e_type q P sb' tb lb vb Vb).
Notation vlongB := (v_long q P m0 pb sb' tb lb vb Fb Vb).
Notation vshortB := (v_short q P m0 pb sb' tb lb vb Fb Vb).
Notation vmontB := (v_mont q P m0 pb sb' tb lb vb Fb Vb).
Notation c2 := (24 + N8).
Lemma c2_al : c2 mod 8 = 0. Proof. rewrite (Z.mul_comm 8), Z.add_mod, Z.mod_mul by lia. reflexivity. Qed.
(** the two elements are at hand, the short-short case is done *)
Definition Start (m : mach) : Prop := FS 24 m /\ regs m RSI = pa /\ regs m RDX = pb /\ regs m R8 = word_of sa ta /\ regs m R9 = word_of sb' tb.
Lemma start_f m f : Start m -> Start (setf m f). Proof. intros H. exact H. Qed.
Lemma head_tw cnd b code : (tlong ta = false -> tlong tb = false -> scond_holds false (sa mod W32) (sb' mod W32) cnd = b) ->
  (forall m, FS 24 m -> tw lay ra code (Res b) (m, Some (if b then 54%nat else 53%nat))) ->
  (forall m, Start m -> tlong ta = true -> tw lay ra code (Res b) (m, Some 20%nat)) -> (forall m, Start m -> tlong ta = false -> tlong tb = true -> tw lay ra code (Res b) (m, Some 30%nat)) ->
  tw lay ra (cmpHead cnd ++ code) (Res b) (m0, None).
Proof.
  intros HC HE H20 H30. pose proof (sb_pos P) as SB. pose proof (e_ptr q P OK m0 pa sa ta la Fa) as (A1 & A2 & A3). pose proof (e_ptr q P OK m0 pb sb' tb lb Fb) as (B1 & B2 & B3). pose proof (xr_room _ _ _ _ Rdy) as RM.
  unfold cmpHead. rewrite <- app_assoc. apply (b_enter P lay ra m0 D Rdy 0 0 Opr0 Bpr0 D_24). intros m ST SV RG MM. cbn [app]. pose proof (word_range sa ta TA) as WR. pose proof (word_range sb' tb TB) as WRb.
  apply (t_ld lay ra _ _ _ _ pa); [rewrite RG, Esi, Z.add_0_r by discriminate; apply Z.mod_small; lia|exact A2|]. rewrite MM by (unfold xoff in Oa; lia). rewrite (e_head P m0 pa sa ta la Fa).
  apply (t_ld lay ra _ _ _ _ pb); [rg; rewrite RG, Edx, Z.add_0_r by discriminate; apply Z.mod_small; lia|exact B2|]. rg. rewrite MM by (unfold xoff in Ob; lia). rewrite (e_head P m0 pb sb' tb lb Fb).
  match goal with |- tw _ _ _ _ (?mm, _) => set (m1 := mm) end.
  assert (S1 : Start m1). { split; [split; [unfold m1; stt ST|exact SV]|]. unfold m1. rg. rewrite !RG by discriminate. auto. }
  clearbody m1. pose proof S1 as (F1 & _ & _ & E8 & E9).
  apply t_btc; rewrite E8, word_63 by exact TA; intros f T.
  - repeat first [apply H20; [apply start_f; exact S1|exact T] | eapply tw_cons; [reflexivity|]].
  - apply t_btc; rg; rewrite E9, word_63 by exact TB; intros f2 Tb; [repeat first [apply H30; [apply start_f, start_f; exact S1|exact T|exact Tb] | eapply tw_cons; [reflexivity|]]|].
    eapply t_cmpj; [reflexivity|reflexivity| |]; rg; rewrite E8, E9, !word_lo, (HC T Tb); intros f3 Hb.
    + eapply tw_cons; [reflexivity|]. specialize (HE (setf (setf (setf m1 f) f2) f3) F1). rewrite Hb in *. exact HE.
    + apply t_jmp. specialize (HE (setf (setf (setf m1 f) f2) f3) F1). rewrite Hb in *. exact HE.
Qed.
(** the order comparisons *)
Lemma ord_tw b code : (forall c m pa' pb', state c m pa' pb' va vb -> tw lay ra code (Res b) (m, None)) ->
  (forall m, Start m -> tlong ta = true -> tw lay ra (cmpOrd lay ra n opt ++ code) (Res b) (m, Some 20%nat)) /\ (forall m, Start m -> tlong ta = false -> tlong tb = true -> tw lay ra (cmpOrd lay ra n opt ++ code) (Res b) (m, Some 30%nat)).
Proof.
  intros HT. pose proof (sb_pos P) as SB. pose proof c2_al as CA.
  assert (LA := cv_long HQ N12 N7 pa sa ta la va Va). assert (LB := cv_long HQ N12 N7 pb sb' tb lb vb Vb). assert (NA := cv_norm N12 N7 pa sa ta la va Va). assert (NB := cv_norm N12 N7 pb sb' tb lb vb Vb).
  unfold cmpOrd. rewrite <- !app_assoc. split; intros m S; pose proof S as (F & E1 & E2 & E8 & E9); pose proof F as (ST & SV).
  - intros T. eapply t_after; [reflexivity|]. apply t_btc; rewrite E9, word_63 by exact TB; intros f Tb; [eapply t_after; [reflexivity|]|].
    + apply t_btc; rg; rewrite E8, word_62 by exact TA; intros f2 M; [eapply t_after; [reflexivity|]|]; (apply t_btc; rg; rewrite E9, word_62 by exact TB; intros f3 Mb; [eapply t_after; [reflexivity|]|]).
      * eapply (k_a _ pa sa ta la va Fa Oa (NA T) 24); [reflexivity|lia|lia|exact F|exact E1|]. intros m1 (F1 & X1 & X2 & X3 & X4).
        eapply (k_b _ pb sb' tb lb vb Fb Ob (NB Tb) c2); [exact CA|lia|lia|exact F1|rewrite X2; exact E2|]. intros m2 (F2 & Y1 & Y2 & Y3 & Y4).
        apply t_jmp. eapply t_after; [reflexivity|]. eapply HT. split; [exact F2|]. split; [rewrite Y2; exact X1|]. split; [exact Y1|]. split; [apply Y4, X3|apply Y3].
      * eapply (k_a _ pa sa ta la va Fa Oa (NA T) 24); [reflexivity|lia|lia|exact F|exact E1|]. intros m1 (F1 & X1 & X2 & X3 & X4).
        apply t_jmp. eapply t_after; [reflexivity|]. eapply HT. split; [exact F1|]. split; [exact X1|]. split; [rewrite X2; exact E2|]. split; [apply X3|]. rewrite <- (vlongB Tb Mb). apply X4. eapply held_user; [apply ST|exact Fb|exact Ob].
      * eapply (k_b _ pb sb' tb lb vb Fb Ob (NB Tb) 24); [reflexivity|lia|lia|exact F|exact E2|]. intros m1 (F1 & X1 & X2 & X3 & X4).
        apply t_jmp. eapply t_after; [reflexivity|]. eapply HT. split; [exact F1|]. split; [rewrite X2; exact E1|]. split; [exact X1|]. split; [|apply X3]. rewrite <- (vlongA T M). apply X4. eapply held_user; [apply ST|exact Fa|exact Oa].
      * apply t_jmp. eapply t_after; [reflexivity|]. apply (HT 24 _ pa pb). split; [exact F|]. split; [exact E1|]. split; [exact E2|]. rewrite <- (vlongA T M), <- (vlongB Tb Mb). split; [eapply (held_user 24); [apply ST|exact Fa|exact Oa]|eapply (held_user 24); [apply ST|exact Fb|exact Ob]].
    + apply t_btc; rg; rewrite E8, word_62 by exact TA; intros f2 M; [eapply t_after; [reflexivity|]|].
      * eapply (k_b _ pb sb' tb lb vb Fb Ob LB 24); [reflexivity|lia|lia|exact F|exact E2|]. intros m1 (F1 & X1 & X2 & X3 & X4).
        eapply (k_a _ pa sa ta la va Fa Oa (NA T) c2); [exact CA|lia|lia|exact F1|rewrite X2; exact E1|]. intros m2 (F2 & Y1 & Y2 & Y3 & Y4).
        apply t_jmp. eapply t_after; [reflexivity|]. eapply HT. split; [exact F2|]. split; [exact Y1|]. split; [rewrite Y2; exact X1|]. split; [apply Y3|apply Y4, X3].
      * eapply (k_b _ pb sb' tb lb vb Fb Ob LB 24); [reflexivity|lia|lia|exact F|exact E2|]. intros m1 (F1 & X1 & X2 & X3 & X4).
        apply t_jmp. eapply t_after; [reflexivity|]. eapply HT. split; [exact F1|]. split; [rewrite X2; exact E1|]. split; [exact X1|]. split; [|apply X3]. rewrite <- (vlongA T M). apply X4. eapply held_user; [apply ST|exact Fa|exact Oa].
  - intros T Tb. eapply t_after; [reflexivity|]. apply t_btc; rewrite E9, word_62 by exact TB; intros f Mb; [eapply t_after; [reflexivity|]|].
    + eapply (k_a _ pa sa ta la va Fa Oa LA 24); [reflexivity|lia|lia|exact F|exact E1|]. intros m1 (F1 & X1 & X2 & X3 & X4).
      eapply (k_b _ pb sb' tb lb vb Fb Ob (NB Tb) c2); [exact CA|lia|lia|exact F1|rewrite X2; exact E2|]. intros m2 (F2 & Y1 & Y2 & Y3 & Y4).
      apply t_jmp. eapply t_after; [reflexivity|]. eapply HT. split; [exact F2|]. split; [rewrite Y2; exact X1|]. split; [exact Y1|]. split; [apply Y4, X3|apply Y3].
    + eapply (k_a _ pa sa ta la va Fa Oa LA 24); [reflexivity|lia|lia|exact F|exact E1|]. intros m1 (F1 & X1 & X2 & X3 & X4).
      apply t_jmp. eapply t_after; [reflexivity|]. eapply HT. split; [exact F1|]. split; [exact X1|]. split; [rewrite X2; exact E2|]. split; [apply X3|]. rewrite <- (vlongB Tb Mb). apply X4. eapply held_user; [apply ST|exact Fb|exact Ob].
Qed.
Lemma sx_word s : is_int32 s -> sx32 (s mod W32) = s.
Proof. intros H. rewrite sx32_mod. apply sx32_int, H. Qed.
Lemma rgt_call : exists m', f_rgt lay ra n opt m0 = Some m' /\ BRes (signed q vb <? signed q va) m'.
Proof.
  apply tcall_of. change (asm_rgt lay ra n opt) with (cmpHead Cg ++ cmpOrd lay ra n opt ++ tailGt). pose proof (v_range q P sa ta la va Va) as Ra. pose proof (v_range q P sb' tb lb vb Vb) as Rb.
  destruct (ord_tw (signed q vb <? signed q va) tailGt) as [H20 H30]; [intros c m pa' pb' S; exact (tail_gt c m pa' pb' va vb Ra Rb S)|].
  apply head_tw; [|intros m F|exact H20|exact H30].
  - intros T Tb. rewrite (vshortA T), (vshortB Tb), !signed_short by (first [exact HQ|apply Fa|apply Fb]). cbn [scond_holds]. rewrite !sx_word by (first [apply Fa|apply Fb]). reflexivity.
  - apply t_over; [destruct (_ <? _); reflexivity|]. unfold tailGt. apply t_over; [apply signL_nolab|]. apply t_over; [destruct (_ <? _); reflexivity|]. apply t_over; [apply signL_nolab|]. apply t_over; [destruct (_ <? _); reflexivity|]. apply t_over; [apply signL_nolab|]. apply skipGt; [destruct (_ <? _); tauto|].
    destruct (signed q vb <? signed q va); [apply (end54 24); [exact F|reflexivity]|apply (end53 24); [exact F|reflexivity]].
Qed.
Lemma rlt_call : exists m', f_rlt lay ra n opt m0 = Some m' /\ BRes (signed q va <? signed q vb) m'.
Proof.
  apply tcall_of. change (asm_rlt lay ra n opt) with (cmpHead Cl ++ cmpOrd lay ra n opt ++ tailLt). pose proof (v_range q P sa ta la va Va) as Ra. pose proof (v_range q P sb' tb lb vb Vb) as Rb.
  destruct (ord_tw (signed q va <? signed q vb) tailLt) as [H20 H30]; [intros c m pa' pb' S; exact (tail_lt c m pa' pb' va vb Ra Rb S)|].
  apply head_tw; [|intros m F|exact H20|exact H30].
  - intros T Tb. rewrite (vshortA T), (vshortB Tb), !signed_short by (first [exact HQ|apply Fa|apply Fb]). cbn [scond_holds]. rewrite !sx_word by (first [apply Fa|apply Fb]). reflexivity.
  - apply t_over; [destruct (_ <? _); reflexivity|]. unfold tailLt. apply t_over; [apply signL_nolab|]. apply t_over; [destruct (_ <? _); reflexivity|]. apply t_over; [apply signL_nolab|]. apply t_over; [destruct (_ <? _); reflexivity|]. apply t_over; [apply signL_nolab|]. apply skipLt; [destruct (_ <? _); tauto|].
    destruct (signed q va <? signed q vb); [apply (end54 24); [exact F|reflexivity]|apply (end53 24); [exact F|reflexivity]].
Qed.
(** equality *)
Definition eqLoop : list instr := flat_map (fun i => [I Imov [OReg RAX; at8 RSI (i + 1)]; I Icmp [at8 RDX (i + 1); OReg RAX]; J Cnz 53%nat]) (seq 0 n).
Lemma eq_tail c m pa' pb' x y b : state c m pa' pb' x y -> (x =? y) = b -> tw lay ra (map X eqLoop ++ ret1 ++ ret0) (Res b) (m, None).
Proof.
  intros (F & E1 & E2 & (A1 & A2 & A3) & (B1 & B2 & B3)) Eb. apply t_X. eapply ww_mono; [|apply (req_loop lay n m (fs_words _ _ F) pa' pb' 53%nat E1 E2 A1 B1 A2 B2)].
  intros [m' sk] [O E]. cbn [fst snd] in *. rewrite A3, B3, Eb in E. subst sk. pose proof (fs_rax _ _ _ F O) as F'. destruct b.
  - unfold ret1. cbn [app]. apply t_lab. eapply b_ret1; [exact F'|reflexivity].
  - eapply t_after; [reflexivity|]. rewrite <- (app_nil_r leaveRet). eapply b_ret0; [exact F'|reflexivity].
Qed.
Lemma mont_eqb x y : 0 <= x < q -> 0 <= y < q -> ((x * R) mod q =? (y * R) mod q) = (x =? y).
Proof.
  intros Hx Hy. destruct (Z.eqb_spec x y) as [->|N]; [apply Z.eqb_refl|]. apply Z.eqb_neq. intros E. apply N. apply (Rad_cancel q P OK) in E. rewrite !Z.mod_small in E by assumption. exact E.
Qed.
Lemma req_call : exists m', f_req lay ra n opt m0 = Some m' /\ BRes (va =? vb) m'.
Proof.
  apply tcall_of. unfold asm_req. fold eqLoop. pose proof (v_range q P sa ta la va Va) as Ra. pose proof (v_range q P sb' tb lb vb Vb) as Rb. pose proof (sb_pos P) as SB. pose proof (mont_eqb va vb Ra Rb) as ME.
  assert (LA := cv_long HQ N12 N7 pa sa ta la va Va). assert (LB := cv_long HQ N12 N7 pb sb' tb lb vb Vb). assert (MA := cv_mont N12 N7 pa sa ta la va Va). assert (MB := cv_mont N12 N7 pb sb' tb lb vb Vb).
  apply head_tw.
  - intros T Tb. rewrite (vshortA T), (vshortB Tb). cbn [scond_holds]. destruct (Z.eqb_spec (sa mod W32) (sb' mod W32)) as [E|E]; symmetry.
    + apply Z.eqb_eq. f_equal. rewrite <- (sx_word sa), <- (sx_word sb'), E by (first [apply Fa|apply Fb]). reflexivity.
    + apply Z.eqb_neq. intros E'. apply E. rewrite <- (signed_short q sa HQ (proj1 Fa)), <- (signed_short q sb' HQ (proj1 Fb)), E'. reflexivity.
  - intros m F. repeat (apply t_over; [destruct (va =? vb); reflexivity|]). apply t_over; [rewrite tnolab_X; apply nolab_flat; reflexivity|].
    destruct (va =? vb); eapply t_after; try reflexivity; [eapply b_ret1|rewrite <- (app_nil_r leaveRet); eapply b_ret0]; try exact F; reflexivity.
  - intros m S T. pose proof S as (F & E1 & E2 & E8 & E9). pose proof F as (ST & SV). eapply t_after; [reflexivity|]. apply t_btc; rewrite E9, word_63 by exact TB; intros f Tb; [eapply t_after; [reflexivity|]|].
    + apply t_btc; rg; rewrite E8, word_62 by exact TA; intros f2 M; [eapply t_after; [reflexivity|]|]; (apply t_btc; rg; rewrite E9, word_62 by exact TB; intros f3 Mb; [eapply t_after; [reflexivity|]|]).
      * apply t_jmp. eapply t_after; [reflexivity|]. apply (eq_tail 24 _ pa pb ((va * R) mod q) ((vb * R) mod q)); [|exact ME]. split; [exact F|]. split; [exact E1|]. split; [exact E2|]. rewrite <- (vmontA M), <- (vmontB Mb). split; [eapply (held_user 24); [apply ST|exact Fa|exact Oa]|eapply (held_user 24); [apply ST|exact Fb|exact Ob]].
      * eapply (k_b _ pb sb' tb lb _ Fb Ob MB 24); [reflexivity|lia|lia|exact F|exact E2|]. intros m1 (F1 & X1 & X2 & X3 & X4).
        apply t_jmp. eapply t_after; [reflexivity|]. eapply eq_tail; [|exact ME]. split; [exact F1|]. split; [rewrite X2; exact E1|]. split; [exact X1|]. split; [|apply X3]. rewrite <- (vmontA M). apply X4. eapply held_user; [apply ST|exact Fa|exact Oa].
      * eapply (k_a _ pa sa ta la _ Fa Oa MA 24); [reflexivity|lia|lia|exact F|exact E1|]. intros m1 (F1 & X1 & X2 & X3 & X4).
        apply t_jmp. eapply t_after; [reflexivity|]. eapply eq_tail; [|exact ME]. split; [exact F1|]. split; [exact X1|]. split; [rewrite X2; exact E2|]. split; [apply X3|]. rewrite <- (vmontB Mb). apply X4. eapply held_user; [apply ST|exact Fb|exact Ob].
      * apply t_jmp. eapply t_after; [reflexivity|]. apply (eq_tail 24 _ pa pb va vb); [|reflexivity]. split; [exact F|]. split; [exact E1|]. split; [exact E2|]. rewrite <- (vlongA T M), <- (vlongB Tb Mb). split; [eapply (held_user 24); [apply ST|exact Fa|exact Oa]|eapply (held_user 24); [apply ST|exact Fb|exact Ob]].
    + apply t_btc; rg; rewrite E8, word_62 by exact TA; intros f2 M; [eapply t_after; [reflexivity|]|].
      * eapply (k_b _ pb sb' tb lb _ Fb Ob MB 24); [reflexivity|lia|lia|exact F|exact E2|]. intros m1 (F1 & X1 & X2 & X3 & X4).
        apply t_jmp. eapply t_after; [reflexivity|]. eapply eq_tail; [|exact ME]. split; [exact F1|]. split; [rewrite X2; exact E1|]. split; [exact X1|]. split; [|apply X3]. rewrite <- (vmontA M). apply X4. eapply held_user; [apply ST|exact Fa|exact Oa].
      * eapply (k_b _ pb sb' tb lb vb Fb Ob LB 24); [reflexivity|lia|lia|exact F|exact E2|]. intros m1 (F1 & X1 & X2 & X3 & X4).
        apply t_jmp. eapply t_after; [reflexivity|]. eapply eq_tail; [|reflexivity]. split; [exact F1|]. split; [rewrite X2; exact E1|]. split; [exact X1|]. split; [|apply X3]. rewrite <- (vlongA T M). apply X4. eapply held_user; [apply ST|exact Fa|exact Oa].
  - intros m S T Tb. pose proof S as (F & E1 & E2 & E8 & E9). pose proof F as (ST & SV). eapply t_after; [reflexivity|]. apply t_btc; rewrite E9, word_62 by exact TB; intros f Mb; [eapply t_after; [reflexivity|]|].
    + eapply (k_a _ pa sa ta la _ Fa Oa MA 24); [reflexivity|lia|lia|exact F|exact E1|]. intros m1 (F1 & X1 & X2 & X3 & X4).
      apply t_jmp. eapply t_after; [reflexivity|]. eapply eq_tail; [|exact ME]. split; [exact F1|]. split; [exact X1|]. split; [rewrite X2; exact E2|]. split; [apply X3|]. rewrite <- (vmontB Mb). apply X4. eapply held_user; [apply ST|exact Fb|exact Ob].
    + eapply (k_a _ pa sa ta la va Fa Oa LA 24); [reflexivity|lia|lia|exact F|exact E1|]. intros m1 (F1 & X1 & X2 & X3 & X4).
      apply t_jmp. eapply t_after; [reflexivity|]. eapply eq_tail; [|reflexivity]. split; [exact F1|]. split; [exact X1|]. split; [rewrite X2; exact E2|]. split; [apply X3|]. rewrite <- (vlongB Tb Mb). apply X4. eapply held_user; [apply ST|exact Fb|exact Ob].
Qed.
End Main.
End Cmp.
