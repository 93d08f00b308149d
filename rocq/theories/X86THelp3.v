(** rawCopyS2L and rawNegLS. *)
From Coq Require Import ZArith List Bool Arith Lia.
From Verif Require Import Limbs LimbsFacts X86 X86Sim X86Mont X86Call X86Raw X86RawFacts X86RawFacts2 X86RawFacts3 X86T X86TWords X86TFacts X86THelp X86THelp2.
Import ListNotations.
Open Scope Z_scope.

Ltac nin := cbn [In]; intuition discriminate.
Lemma es_const c n : es (fun _ => c) n * (B - 1) = c * (B ^ Z.of_nat n - 1).
Proof. induction n as [|n IH]; [cbn; lia|]. cbn [es]. rewrite Bpow_S. lia. Qed.
Definition fsh (d : Z) (j : nat) : Z := if Nat.eqb j 0 then d else B - 1.
Lemma es_fsh d n : (1 <= n)%nat -> es (fsh d) n = d + B ^ Z.of_nat n - B.
Proof.
  intros H. destruct n as [|n]; [lia|]. clear H. induction n as [|n IH]; [cbn [es fsh Nat.eqb]; change (B ^ Z.of_nat 0) with 1; change (B ^ Z.of_nat 1) with B; lia|].
  change (es (fsh d) (S (S n))) with (es (fsh d) (S n) + fsh d (S n) * B ^ Z.of_nat (S n)). rewrite IH. cbn [fsh Nat.eqb]. rewrite (Bpow_S (S n)). lia.
Qed.
Lemma fsh_range d j : 0 <= d < B -> 0 <= fsh d j < B.
Proof. intros H. unfold fsh. destruct (Nat.eqb j 0); [exact H|]. pose proof B_pos. lia. Qed.
Lemma fsh_S d i : (1 <= i)%nat -> fsh d i = B - 1. Proof. destruct i; [lia|reflexivity]. Qed.
Lemma sgn64 x : 0 <= x < B -> scond_holds true x 0 Cs = (B / 2 <=? x).
Proof.
  intros H. unfold scond_holds. rewrite Z.sub_0_r, Z.mod_small by exact H. unfold sx64. change B with (2 ^ 64) in *. change (2 ^ 64 / 2) with (2 ^ 63).
  destruct (Z.ltb_spec x (2 ^ 63)), (Z.leb_spec (2 ^ 63) x); lia.
Qed.

Section S2L.
Variable lay : sym -> Z.
Variable ra : Z.
Variable n : nat.
Variable m : mach.
Variable p : Z.
Hypothesis Hm : words m.
Hypothesis Ep : regs m RDI = p.
Hypothesis Hp : ptr p (S n).
Hypothesis Hn : (1 <= n)%nat.
Hypothesis Hq : ptr (lay Sq) n.
Hypothesis Dq : lay Sq + 8 * Z.of_nat n <= p \/ p + 8 * Z.of_nat (S n) <= lay Sq.
Hypothesis Hret : forall j, (j < S n)%nat -> regs m RSP <> p + 8 * Z.of_nat j.
Notation q := (vals m (lay Sq) n).
Notation pd := (p + 8).
Notation clob := [RAX; RSI].
Lemma loc_d m' i : regs m' RDI = p -> (i < n)%nat -> loc lay m' (at8 RDI (i + 1)) (pd + 8 * Z.of_nat i).
Proof. intros E Hi. replace (pd + 8 * Z.of_nat i) with (p + 8 * Z.of_nat (i + 1)) by lia. apply loc_at8 with (S n); [exact E|exact Hp|lia]. Qed.
Lemma loc_d0 m' : regs m' RDI = p -> loc lay m' (at8 RDI 1) (pd + 8 * Z.of_nat 0).
Proof. intros E. apply (loc_d m' 0 E). lia. Qed.
Lemma rawCopyS2L_call v : regs m RSI = v mod B -> - (B / 2) <= v < B / 2 -> - q <= v < q -> 
  exists m' l, f_rawCopyS2L lay ra n m = Some m' /\ limbs_ok n l /\ eval l = v mod q /\ stored clob p (2 ^ 63 :: l) m m'.
Proof.
  intros Ev Hv Hvq. pose proof (vals_range n m Hm (lay Sq)) as RQ. pose proof B_pos as HB. assert (HB2 : B = 2 * 2 ^ 63) by reflexivity. change (B / 2) with (2 ^ 63) in Hv.
  assert (Hpd : ptr pd n). { destruct Hp as (P1 & P2 & P3). split; [lia|]. split; [|lia]. replace (p + 8) with (p + 1 * 8) by lia. rewrite Z.mod_add by lia. exact P2. }
  set (m1 := setm m p (2 ^ 63)).
  assert (W1 : words m1) by (apply words_setm; [exact Hm|unfold B; lia]).
  assert (Q1 : vals m1 (lay Sq) n = q). { apply es_ext. intros j Hj. cbn [m1 setm mem]. apply mupd_neq. lia. }
  assert (Dq1 : apart n (lay Sq) pd) by (unfold apart; lia).
  (* from the limbs to the result *)
  assert (FIN : forall m', FinalC n m1 pd clob (v mod q) (m', None) -> regs m' RSP = regs m RSP /\ mem m' (regs m RSP) = mem m (regs m RSP) /\
    exists l, limbs_ok n l /\ eval l = v mod q /\ stored clob p (2 ^ 63 :: l) m (setr m' RSP ((regs m RSP + 8) mod B))).
  { intros m' [_ K2 K3 K4 K5]. cbn [fst] in *. split; [apply K2; nin|]. split.
    - rewrite K3 by (intros j Hj; pose proof (Hret (S j) ltac:(lia)); lia). cbn [m1 setm mem]. apply mupd_neq. pose proof (Hret 0%nat ltac:(lia)). lia.
    - destruct (limbs_of n pd Hn m' _ K4 K5) as (l & L1 & L2 & L3). exists l. split; [exact L1|]. split; [exact L2|]. unfold stored. cbn [length setr regs mem]. rewrite (proj1 L1). split; [|split; [|split]].
      + intros [|j] Hj; cbn [nth].
        * rewrite K3 by (intros; lia). replace (p + 8 * Z.of_nat 0) with p by lia. cbn [m1 setm mem]. apply mupd_eq.
        * rewrite <- L3 by lia. f_equal. lia.
      + intros x Hx. rewrite K3. { cbn [m1 setm mem]. apply mupd_neq. pose proof (Hx 0%nat ltac:(lia)). lia. } intros j Hj. pose proof (Hx (S j) ltac:(lia)). lia.
      + intros r Hr Hs. rewrite rupd_neq by exact Hs. apply K2, Hr.
      + apply rupd_eq. }
  destruct (tcall_of lay ra (asm_rawCopyS2L n) m (fun m' => exists l, limbs_ok n l /\ eval l = v mod q /\ stored clob p (2 ^ 63 :: l) m m')) as (m' & E & l & H); [|exists m', l; split; [exact E|exact H]].
  assert (RET : forall code m', tnolab l_ret code = true -> FinalC n m1 pd clob (v mod q) (m', None) -> tw lay ra (TRet :: code) (fun s => snd s = Some l_ret /\ regs (fst s) RSP = regs m RSP /\ mem (fst s) (regs m RSP) = mem m (regs m RSP) /\
     exists l, limbs_ok n l /\ eval l = v mod q /\ stored clob p (2 ^ 63 :: l) m (setr (fst s) RSP ((regs m RSP + 8) mod B))) (m', None)).
  { intros code m' Hc F. apply t_ret; [exact Hc|]. cbn [fst snd]. split; [reflexivity|]. exact (FIN m' F). }
  unfold asm_rawCopyS2L. cbn [app]. apply t_mov8, t_shl64. intros f1. cbn [setr regs]. rewrite rupd_eq. set (a := regs m RAX).
  replace ((a - a mod 256 + 128) * 2 ^ 56 mod B) with (2 ^ 63).
  2:{ rewrite (Z.div_mod a 256) at 1 by lia. replace ((256 * (a / 256) + a mod 256 - a mod 256 + 128) * 2 ^ 56) with (2 ^ 63 + a / 256 * B) by (unfold B; lia). rewrite Z.mod_add by lia. reflexivity. }
  destruct Hp as (P1 & P2 & P3). eapply t_st; [cbn [setf setr regs]; rewrite !rupd_neq, Ep, Z.add_0_r, Z.mod_small by (try discriminate; lia); reflexivity|exact P2|]. cbn [setf setr regs]. rewrite rupd_eq.
  set (m2 := setm _ _ _). assert (G2 : agreeC m1 clob m2). { intros r Hr. unfold m2, m1. cbn [setm setf setr regs]. rewrite !rupd_neq by (intros ->; apply Hr; nin). reflexivity. }
  assert (M2 : mem m2 = mem m1) by reflexivity. assert (S2 : regs m2 RSI = v mod B) by exact Ev. pose proof (Z.mod_pos_bound v B HB) as Rv.
  eapply t_cmpj; [reflexivity|reflexivity| |]; intros f2; rewrite S2, sgn64 by exact Rv.
  - (* negative *) change (B / 2) with (2 ^ 63). intros C. apply Z.leb_le in C. eapply t_after.
    { apply (after_app _ (map X _)); [rewrite tnolab_X; cbn [app nolab]; rewrite flat_map_single; apply nolab_flat; reflexivity|]. reflexivity. }
    assert (Vn : v < 0). { destruct (Z_lt_le_dec v 0); [assumption|]. rewrite Z.mod_small in C by lia. lia. }
    assert (Em : v mod B = v + B) by (rewrite <- (Z.mod_add _ 1), Z.mod_small by lia; lia).
    apply t_X. apply ww_mono with (Q := fun s => Gch m1 pd clob false (fsh (v mod B)) (fun j => mem m1 (lay Sq + 8 * Z.of_nat j)) n s).
    { intros [m' sk] [K1 K2 K3 K4 K5]. cbn [fst snd] in *. subst sk. apply RET; [reflexivity|]. constructor; cbn [fst snd]; [reflexivity|exact K2|exact K3|exact K4|].
      unfold sg in K5. rewrite es_fsh in K5 by exact Hn. change (es (fun j => mem m1 (lay Sq + 8 * Z.of_nat j)) n) with (vals m1 (lay Sq) n) in K5. rewrite Q1 in K5.
      assert (R' : 0 <= out pd m' n < B ^ Z.of_nat n) by (apply es_bound; exact K4). rewrite <- (Z.mod_add v 1), Z.mod_small by lia. destruct (cf (fl m')); cbn [b2z] in K5; lia. }
    cbn [app]. change (I Iadd) with (I (addOp 0)). eapply w_add; [apply loc_q8 with n; [exact Hq|lia]|]. intros f Hf. cbn [cin Nat.eqb setf regs mem] in *. rewrite S2 in *. rewrite M2 in *.
    eapply w_st; [apply loc_d0; exact Ep|]. apply w_imm. cbn [setr setf regs mem fl]. rewrite rupd_eq.
    apply ww_mono with (Q := fun s => Gch m1 pd clob false (fsh (v mod B)) (fun j => mem m1 (lay Sq + 8 * Z.of_nat j)) n s /\ regs (fst s) RSI = B - 1); [intros s [H _]; exact H|].
    apply (ww_loop1 lay (fun i s => Gch m1 pd clob false (fsh (v mod B)) (fun j => mem m1 (lay Sq + 8 * Z.of_nat j)) i s /\ regs (fst s) RSI = B - 1)); [exact Hn| |].
    + intros i [m' sk] Hi [G Z0]. pose proof G as [K1 K2 K3 K4 K5]. cbn [fst snd] in *. subst sk. apply w_movr. rewrite Z0. rewrite <- (addOp_S i) by lia.
      eapply w_add; [apply loc_q8 with n; [exact Hq|lia]|]. intros f' Hf'. cbn [setr regs mem] in *. rewrite rupd_eq in *. rewrite cin_1 in * by lia. cbn [fl setr] in *.
      assert (Eq : mem m' (lay Sq + 8 * Z.of_nat i) = mem m1 (lay Sq + 8 * Z.of_nat i)) by (apply K3; intros j Hj; lia). rewrite Eq in *.
      eapply w_st; [apply loc_d; [cbn [setf setr regs]; rewrite !rupd_neq, K2 by (try nin; discriminate); exact Ep|lia]|]. apply ww_nil. cbn [setf setr regs fst]. rewrite rupd_eq. split; [|exact Z0].
      apply (gn n m1 pd Hn clob false (fsh (v mod B)) (fun j => mem m1 (lay Sq + 8 * Z.of_nat j)) ltac:(intros; apply fsh_range, Rv) ltac:(intros; apply W1) i m' (setr (setr m' RAX (B - 1)) RAX ((B - 1 + mem m1 (lay Sq + 8 * Z.of_nat i) + b2z (cf (fl m'))) mod B)) f' _ G);
        rewrite ?(fsh_S _ i) by lia; [|reflexivity|exact Hf'|reflexivity]. apply agC, agC; [nin|nin|exact K2].
    + split; [|cbn [fst setr regs]; apply rupd_eq]. apply (g_setr m1 pd clob _ _ _ 1 _ RSI (B - 1)); [nin|].
      apply (g1 n m1 pd Hn clob false (fsh (v mod B)) (fun j => mem m1 (lay Sq + 8 * Z.of_nat j)) ltac:(intros; apply fsh_range, Rv) ltac:(intros; apply W1) (setr m2 RSI ((v mod B + mem m1 (lay Sq + 8 * Z.of_nat 0) + 0) mod B)) f); [|reflexivity|exact Hf|reflexivity].
      apply agC; [nin|exact G2].
  - (* not negative *) change (B / 2) with (2 ^ 63). intros C. apply Z.leb_gt in C.
    assert (Em : v mod B = v). { destruct (Z_lt_le_dec v 0); [|apply Z.mod_small; lia]. rewrite <- (Z.mod_add _ 1), Z.mod_small in C by lia. lia. }
    rewrite Em in *. apply t_X. apply ww_mono with (Q := fun s => FinalC n m1 pd clob v s).
    { intros [m' sk] F. pose proof F as [K1 _ _ _ _]. cbn [snd] in K1. subst sk. apply RET; [|rewrite (Z.mod_small v q) by lia; exact F]. cbn [tnolab Nat.eqb l_ret l_neg' negb andb lab]. rewrite tnolab_app, tnolab_X. cbn [app nolab tnolab]. rewrite nolab_flat by reflexivity. reflexivity. }
    cbn [app]. eapply w_st; [apply loc_d0; exact Ep|]. apply w_xor. intros f3. cbn [setf setr setm regs]. rewrite S2. set (m3 := setf _ f3).
    rewrite flat_map_single.
    apply ww_mono with (Q := fun s => snd s = None /\ agreeC m1 clob (fst s) /\ regs (fst s) RAX = 0 /\ mem (fst s) (pd + 8 * Z.of_nat 0) = v /\ (forall j, (1 <= j < n)%nat -> mem (fst s) (pd + 8 * Z.of_nat j) = 0) /\ untouched m1 pd n (fst s)).
    { intros [m' sk] (K1 & K2 & _ & K3 & K4 & K5). cbn [fst snd] in *. constructor; cbn [fst snd]; [exact K1|exact K2|exact K5| |].
      - intros j Hj. destruct (Nat.eq_dec j 0) as [->|N]; [rewrite K3|rewrite K4 by lia]; lia.
      - unfold out. rewrite (es_ext _ (sht v)); [apply es_sht, Hn|]. intros j Hj. destruct (Nat.eq_dec j 0) as [->|N]; [exact K3|]. rewrite K4 by lia. rewrite sht_S by lia. reflexivity. }
    apply (ww_loop1 lay (fun i s => snd s = None /\ agreeC m1 clob (fst s) /\ regs (fst s) RAX = 0 /\ mem (fst s) (pd + 8 * Z.of_nat 0) = v /\ (forall j, (1 <= j < i)%nat -> mem (fst s) (pd + 8 * Z.of_nat j) = 0) /\ untouched m1 pd i (fst s))); [exact Hn| |].
    + intros i [m' sk] Hi (K1 & K2 & K0 & K3 & K4 & K5). cbn [fst snd] in *. subst sk. eapply w_st; [apply loc_d; [rewrite K2 by nin; exact Ep|lia]|]. rewrite K0. apply ww_nil. cbn [fst snd setm regs mem]. split; [reflexivity|]. split; [exact K2|]. split; [exact K0|]. split; [rewrite mupd_neq by lia; exact K3|]. split.
      * intros j Hj. destruct (Nat.eq_dec j i) as [->|N]; [apply mupd_eq|]. rewrite mupd_neq by lia. apply K4. lia.
      * intros x Hx. cbn [setm mem]. rewrite mupd_neq by (apply Hx; lia). apply K5. intros j Hj. apply Hx. lia.
    + cbn [fst snd]. split; [reflexivity|]. split; [|split; [|split; [|split]]].
      * intros r Hr. unfold m3. cbn [setf setr setm regs]. rewrite !rupd_neq by (intros ->; apply Hr; nin). apply G2, Hr.
      * reflexivity.
      * unfold m3. cbn [setf setr setm mem]. apply mupd_eq.
      * intros; lia.
      * intros x Hx. unfold m3. cbn [setf setr setm mem]. rewrite mupd_neq by (apply Hx; lia). rewrite <- M2. reflexivity.
Qed.
End S2L.

Section NegLS.
Variable lay : sym -> Z.
Variable ra : Z.
Variable n : nat.
Variable m : mach.
Variable pd : Z.
Hypothesis Hm : words m.
Hypothesis Epd : regs m RDI = pd.
Hypothesis Hpd : ptr pd n.
Hypothesis Hn : (1 <= n)%nat.
Hypothesis Hq : ptr (lay Sq) n.
Hypothesis Dq : apart n (lay Sq) pd.
Hypothesis Hret : forall j, (j < n)%nat -> regs m RSP <> pd + 8 * Z.of_nat j.
Variable pa : Z.
Hypothesis Ea : regs m RSI = pa.
Hypothesis Pa : ptr pa n.
Hypothesis Da : apart n pa pd.
Notation q := (vals m (lay Sq) n).
Notation clob := [RAX; RDX].
Notation xq := (fun j => mem m (lay Sq + 8 * Z.of_nat j)).
Lemma dlh d c : 0 <= d < B -> 0 <= c <= 1 ->
  let x0 := d - d mod 256 + 0 in let x1 := x0 - x0 / 256 mod 256 * 256 + c * 256 in x1 mod 256 = 0 /\ x1 / 256 mod 256 = c /\ 0 <= x1 < B /\ 0 <= x0 < B.
Proof.
  intros Hd Hc x0 x1. assert (E0 : x0 = 256 * (d / 256)) by (unfold x0; pose proof (Z.div_mod d 256); lia). assert (Ed : x0 / 256 = d / 256) by (rewrite E0, Z.mul_comm; apply Z.div_mul; lia).
  assert (E1 : x1 = 256 * (256 * (d / 256 / 256) + c)) by (unfold x1; rewrite Ed, E0; pose proof (Z.div_mod (d / 256) 256); lia).
  split; [rewrite E1, Z.mul_comm; apply Z.mod_mul; lia|]. split; [rewrite E1, (Z.mul_comm 256), Z.div_mul by lia; rewrite Z.add_comm, Z.mul_comm, Z.mod_add by lia; apply Z.mod_small; lia|].
  assert (B = 256 * 256 * 2 ^ 48) by reflexivity. split; [|rewrite E0; pose proof (Z.mul_div_le d 256); pose proof (Z.div_pos d 256); lia]. rewrite E1. rewrite Z.div_div by lia. change (256 * 256) with 65536 in *. assert (d / 65536 < 2 ^ 48) by (apply Z.div_lt_upper_bound; lia). assert (0 <= d / 65536) by (apply Z.div_pos; lia). lia.
Qed.
Lemma rawNegLS_call : vals m pa n < q -> 1 <= regs m RDX <= q ->
  exists m' l, f_rawNegLS lay ra n m = Some m' /\ limbs_ok n l /\ eval l = (- vals m pa n - regs m RDX) mod q /\ stored clob pd l m m'.
Proof.
  intros Xq Hd. set (d := regs m RDX) in *. assert (Rd : 0 <= d < B) by apply Hm. pose proof (vals_range n m Hm (lay Sq)) as RQ. pose proof (vals_range n m Hm pa) as RX. pose proof B_pos as HB. pose proof (Bpow_pos n) as HBn.
  set (V := (- vals m pa n - d) mod q).
  destruct (tcall_of lay ra (asm_rawNegLS n) m (fun m' => exists l, limbs_ok n l /\ eval l = V /\ stored clob pd l m m')) as (m' & E & l & H); [|exists m', l; split; [exact E|exact H]].
  assert (RET : forall m', FinalC n m pd clob V (m', None) -> tw lay ra [TRet] (fun s => snd s = Some l_ret /\ regs (fst s) RSP = regs m RSP /\ mem (fst s) (regs m RSP) = mem m (regs m RSP) /\
     exists l, limbs_ok n l /\ eval l = V /\ stored clob pd l m (setr (fst s) RSP ((regs m RSP + 8) mod B))) (m', None)).
  { intros m' [_ K2 K3 K4 K5]. cbn [fst] in *. apply t_ret; [reflexivity|]. cbn [fst snd]. split; [reflexivity|]. split; [apply K2; nin|]. split; [apply K3, Hret|].
    destruct (limbs_of n pd Hn m' _ K4 K5) as (l & L1 & L2 & L3). exists l. split; [exact L1|]. split; [exact L2|]. unfold stored. cbn [setr regs mem]. rewrite (proj1 L1). split; [exact L3|]. split; [exact K3|]. split; [|apply rupd_eq].
    intros r Hr Hs. rewrite rupd_neq by exact Hs. apply K2, Hr. }
  unfold asm_rawNegLS. apply t_X. apply ww_mono with (Q := fun s => (Gch m pd clob true xq (sht d) n s /\ regs (fst s) RDX = d) /\ words (fst s)).
  2:{ apply ww_words; [exact Hm|raw_ok|]. apply ww_app. eapply w_ld; [apply loc_q8 with n; [exact Hq|lia]|]. change (I Isub) with (I (subOp 0)). apply w_subr. intros f Hf. cbn [cin Nat.eqb setr regs] in *. rewrite rupd_eq in *. rewrite rupd_neq in * by discriminate. fold d in Hf |- *.
    eapply w_st; [apply loc_at8 with n; [exact Epd|exact Hpd|lia]|]. apply ww_nil.
    apply (ww_loop1 lay (fun i s => Gch m pd clob true xq (sht d) i s /\ regs (fst s) RDX = d)); [exact Hn| |].
    - intros i [m' sk] Hi [G Z0]. pose proof G as [K1 K2 K3 K4 K5]. cbn [fst snd] in *. subst sk. eapply w_ld; [apply loc_q8 with n; [exact Hq|lia]|]. rewrite <- (subOp_S i) by lia.
      apply w_subi. intros f' Hf'. cbn [setr regs mem] in *. rewrite rupd_eq in *. rewrite cin_1 in * by lia. cbn [fl setr] in *.
      assert (Eq : mem m' (lay Sq + 8 * Z.of_nat i) = xq i) by (apply K3; intros j Hj; destruct Dq; lia). rewrite Eq in *.
      eapply w_st; [apply loc_at8 with n; [cbn [setf setr regs]; rewrite !rupd_neq, K2 by (try nin; discriminate); exact Epd|exact Hpd|lia]|]. apply ww_nil. cbn [setf setr regs fst]. rewrite rupd_eq. split; [|exact Z0].
      apply (gn n m pd Hn clob true xq (sht d) ltac:(intros; apply Hm) ltac:(intros; apply sht_range, Rd) i m' (setr (setr m' RAX (xq i)) RAX ((xq i - 0 - b2z (cf (fl m'))) mod B)) f' _ G);
        rewrite ?(sht_S _ i) by lia; [|reflexivity|exact Hf'|reflexivity]. apply agC, agC; [nin|nin|exact K2].
    - split; [|reflexivity]. cbn [setr setf regs mem fl]. rewrite rupd_eq.
      apply (g1 n m pd Hn clob true xq (sht d) ltac:(intros; apply Hm) ltac:(intros; apply sht_range, Rd) (setr (setr m RAX (xq 0%nat)) RAX ((xq 0%nat - d - 0) mod B)) f); [|reflexivity|exact Hf|reflexivity].
      apply agC, agC; [nin|nin|intros r _; reflexivity]. }
  intros [m1 sk] [[[K1 K2 K3 K4 K5] Z1] W1]. cbn [fst snd] in *. subst sk. unfold sg in K5. rewrite es_sht in K5 by exact Hn. change (es xq n) with q in K5.
  assert (R1 : 0 <= out pd m1 n < B ^ Z.of_nat n) by (apply es_bound; exact K4).
  assert (C1 : cf (fl m1) = false) by (destruct (cf (fl m1)); [cbn [b2z] in K5; lia|reflexivity]). rewrite C1 in K5. cbn [b2z] in K5.
  cbn [app]. eapply tw_cons; [reflexivity|]. rewrite Z1, C1. cbn [b2z]. set (x0 := d - d mod 256 + 0). set (m2 := setr m1 RDX x0).
  destruct (dlh d 0 Rd ltac:(lia)) as (_ & _ & _ & X0). fold x0 in X0.
  assert (W2 : words m2) by (apply words_setr; assumption).
  assert (E2 : regs m2 RDI = pd) by (unfold m2; cbn [setr regs]; rewrite rupd_neq, K2 by (try nin; discriminate); exact Epd).
  assert (Ea2 : regs m2 RSI = pa) by (unfold m2; cbn [setr regs]; rewrite rupd_neq, K2 by (try nin; discriminate); exact Ea).
  assert (VA : vals m2 pa n = vals m pa n) by (apply es_ext; intros j Hj; apply K3; intros i Hi; destruct Da; lia).
  assert (VQ : vals m2 (lay Sq) n = q) by (apply es_ext; intros j Hj; apply K3; intros i Hi; destruct Dq; lia).
  apply t_X. apply ww_mono with (Q := fun s => Chn m2 pd (fun j => pd + 8 * Z.of_nat j) (fun j => pa + 8 * Z.of_nat j) true n s /\ words (fst s)).
  2:{ apply ww_words; [exact W2|raw_ok|]. apply (chain lay n m2 pd W2 E2 Hpd (at8 RDI) (at8 RSI) (fun j => pd + 8 * Z.of_nat j) (fun j => pa + 8 * Z.of_nat j)) with (sub := true).
    - intros i m' Hi G. apply loc_at8 with n; [rewrite G by discriminate; exact E2|exact Hpd|exact Hi].
    - intros i m' Hi G. apply loc_at8 with n; [rewrite G by discriminate; exact Ea2|exact Pa|exact Hi].
    - intros i j Hij. lia.
    - intros i j Hij. destruct Da; lia. }
  intros [m3 sk] [[J1 J2 J3 J4 J5 _] W3]. cbn [fst snd] in *. subst sk. change (out pd m3 n - cin n m3 * B ^ Z.of_nat n = out pd m1 n - vals m2 pa n) in J5. rewrite VA in J5.
  assert (R3 : 0 <= out pd m3 n < B ^ Z.of_nat n) by (apply es_bound; exact J4).
  assert (Ec : cin n m3 = b2z (cf (fl m3))) by (unfold cin; destruct (Nat.eqb_spec n 0); [lia|reflexivity]). rewrite Ec in J5. set (c := b2z (cf (fl m3))) in *. assert (Rc : 0 <= c <= 1) by apply b2z_range.
  assert (Z3 : regs m3 RDX = x0) by (rewrite J2 by discriminate; unfold m2; cbn [setr regs]; apply rupd_eq).
  destruct (dlh d c Rd Rc) as (D1 & D2 & D3 & _). fold x0 in D1, D2, D3. set (x1 := x0 - x0 / 256 mod 256 * 256 + c * 256) in *.
  eapply tw_cons; [reflexivity|]. rewrite Z3. fold c x1. eapply tw_cons; [reflexivity|]. cbn [setr regs]. rewrite rupd_eq. rewrite D1, D2. cbn [Z.lor]. set (m4 := setf _ _).
  assert (W4 : words m4) by (unfold m4; apply words_setf, words_setr; [apply words_setr; assumption|]; clear - Rc D3 D1; assert (B = 256 * 2 ^ 56) by reflexivity; rewrite Z.sub_0_r; pose proof (Z.div_mod x1 256 ltac:(lia)); lia).
  assert (G4 : agreeC m clob m4). { intros r Hr. unfold m4. cbn [setf setr regs]. rewrite !rupd_neq by (intros ->; apply Hr; nin). rewrite J2 by (intros ->; apply Hr; nin). unfold m2. cbn [setr regs]. rewrite rupd_neq by (intros ->; apply Hr; nin). apply K2, Hr. }
  assert (U4 : untouched m pd n m4) by (intros x Hx; change (mem m4 x) with (mem m3 x); rewrite J3 by exact Hx; apply K3, Hx).
  assert (O4 : out pd m4 n = out pd m3 n) by reflexivity.
  assert (F4 : zf (fl m4) = (c =? 0)) by reflexivity.
  eapply tw_cons; [reflexivity|]. cbn [holds_cond]. rewrite F4. destruct (Z.eqb_spec c 0) as [C0|C0].
  - apply tw_app, t_skip; [rewrite tnolab_X; apply nolab_flat; reflexivity|]. apply t_hit. apply RET. constructor; cbn [fst snd]; [reflexivity|exact G4|exact U4|exact J4|]. rewrite O4. unfold V. rewrite <- (Z.mod_add _ 1), Z.mod_small by lia. lia.
  - assert (c = 1) by lia. apply t_X. eapply ww_mono; [|apply (acc lay n m4 pd W4) with (sub := false)]; [|rewrite G4 by nin; exact Epd|exact Hpd|exact Hq|exact Dq|apply refl_agree|apply refl_un|intros j Hj; apply W4].
    intros [m5 sk] [A1 A2 A3 A4 A5 A6]. cbn [fst snd] in *. subst sk. cbv zeta in A6. change (es (fun j => mem m4 (lay Sq + 8 * Z.of_nat j)) n) with (vals m4 (lay Sq) n) in A6.
    replace (vals m4 (lay Sq) n) with q in A6 by (symmetry; apply es_ext; intros j Hj; apply U4; intros i Hi; destruct Dq; lia). rewrite O4 in A6.
    apply t_lab. apply RET. constructor; cbn [fst snd]; [reflexivity| | |exact A5|].
    + intros r Hr. rewrite A2 by (intros ->; apply Hr; nin). apply G4, Hr.
    + intros x Hx. rewrite A3 by exact Hx. apply U4, Hx.
    + assert (R5 : 0 <= out pd m5 n < B ^ Z.of_nat n) by (apply es_bound; exact A5). pose proof (cin_range n m5). unfold V. rewrite <- (Z.mod_add _ 2), Z.mod_small by nia. assert (D : cin n m5 = 0 \/ cin n m5 = 1) by lia. destruct D as [D|D]; rewrite D in A6; lia.
Qed.
End NegLS.
