(** The raw routines with a short operand: rawAddLS, rawSubLS, rawSubSL, rawNegLS, rawCopyS2L. *)
From Coq Require Import ZArith List Bool Arith Lia.
From Verif Require Import Limbs LimbsFacts X86 X86Sim X86Mont X86Call X86Raw X86RawFacts X86RawFacts2 X86RawFacts3 X86T X86TWords X86TFacts X86THelp.
Import ListNotations.
Open Scope Z_scope.

Lemma ww_words lay code Q s : words (fst s) -> Forall instr_ok code -> ww lay code Q s -> ww lay code (fun s => Q s /\ words (fst s)) s.
Proof. intros W F (s' & E & H). exists s'. split; [exact E|]. split; [exact H|]. exact (run_words _ _ _ _ W F E). Qed.
Definition sht (d : Z) (j : nat) : Z := if Nat.eqb j 0 then d else 0.
Lemma es_sht d n : (1 <= n)%nat -> es (sht d) n = d.
Proof. intros H. destruct n as [|n]; [lia|]. clear H. induction n as [|n IH]; [cbn [es sht Nat.eqb]; change (B ^ Z.of_nat 0) with 1; lia|]. change (es (sht d) (S (S n))) with (es (sht d) (S n) + sht d (S n) * B ^ Z.of_nat (S n)). rewrite IH. cbn [sht Nat.eqb]. lia. Qed.
Lemma sht_range d j : 0 <= d < B -> 0 <= sht d j < B.
Proof. intros H. unfold sht. destruct (Nat.eqb j 0); [exact H|]. pose proof B_pos. lia. Qed.
Lemma sht_S d i : (1 <= i)%nat -> sht d i = 0. Proof. destruct i; [lia|reflexivity]. Qed.

Lemma ww_loop1 lay (Inv : nat -> X86RawFacts.st -> Prop) f n s : (1 <= n)%nat -> (forall i s, (1 <= i < n)%nat -> Inv i s -> ww lay (f i) (Inv (S i)) s) -> Inv 1%nat s -> ww lay (flat_map f (seq 1 (n - 1))) (Inv n) s.
Proof. intros Hn H H1. replace n with (1 + (n - 1))%nat at 2 by lia. apply ww_loop; [|exact H1]. intros i s' Hi. apply H. lia. Qed.
Section R.
Variable lay : sym -> Z.
Variable n : nat.
Variable m : mach.
Variable pd : Z.
Hypothesis Hm : words m.
Hypothesis Epd : regs m RDI = pd.
Hypothesis Hpd : ptr pd n.
Hypothesis Hn : (1 <= n)%nat.
Notation dst j := (pd + 8 * Z.of_nat j).
Notation out := (out pd).
Notation untouched := (untouched m pd).
Record FinalC (clob : list reg) (v : Z) (s : X86RawFacts.st) : Prop := {
  fc_sk : snd s = None; fc_agree : agreeC m clob (fst s); fc_un : untouched n (fst s);
  fc_rng : forall j, (j < n)%nat -> 0 <= mem (fst s) (dst j) < B;
  fc_val : out (fst s) n = v }.
Lemma limbs_of m' v : (forall j, (j < n)%nat -> 0 <= mem m' (dst j) < B) -> out m' n = v -> exists l, limbs_ok n l /\ eval l = v /\ forall j, (j < n)%nat -> mem m' (dst j) = nth j l 0.
Proof.
  intros K4 K5. set (l := map (fun j => mem m' (dst j)) (seq 0 n)).
  assert (Ll : length l = n) by (unfold l; rewrite map_length, seq_length; reflexivity). exists l. split; [|split].
  - split; [exact Ll|]. unfold l. apply Forall_map, Forall_forall. intros j Hj. apply in_seq in Hj. apply K4. lia.
  - rewrite <- K5. unfold X86RawFacts2.out. rewrite es_eval. reflexivity.
  - intros j Hj. unfold l. rewrite (nth_indep _ 0 ((fun j => mem m' (dst j)) 0%nat)) by (rewrite map_length, seq_length; exact Hj). rewrite (map_nth (fun j => mem m' (dst j))), seq_nth by exact Hj. reflexivity.
Qed.
Lemma call_ofC clob code v : (forall j, (j < n)%nat -> regs m RSP <> dst j) -> ~ In RSP clob -> ww lay code (FinalC clob v) (m, None) ->
  exists m' l, call lay code m = Some m' /\ limbs_ok n l /\ eval l = v /\ stored clob pd l m m'.
Proof.
  intros Hret Hc ([m' sk] & E & [K1 K2 K3 K4 K5]). cbn [fst snd] in *. subst sk. destruct (limbs_of m' v K4 K5) as (l & L1 & L2 & L3).
  exists (setr m' RSP ((regs m RSP + 8) mod B)), l. split; [|split; [exact L1|split; [exact L2|]]].
  - unfold call. rewrite E, K2 by exact Hc. rewrite K3 by exact Hret. rewrite !Z.eqb_refl. reflexivity.
  - unfold stored. rewrite (proj1 L1). cbn [setr regs mem]. split; [intros j Hj; apply L3, Hj|]. split; [exact K3|]. split; [|apply rupd_eq].
    intros r Hr Hs. rewrite rupd_neq by exact Hs. apply K2, Hr.
Qed.
Lemma g_setr clob sub x y i m' r v : In r clob -> Gch m pd clob sub x y i (m', None) -> Gch m pd clob sub x y i (setr m' r v, None).
Proof. intros Hr [K1 K2 K3 K4 K5]. cbn [fst snd] in *. constructor; cbn [fst snd]; [reflexivity| |exact K3|exact K4|exact K5]. intros s Hs. cbn [setr regs]. rewrite rupd_neq by (intros ->; exact (Hs Hr)). apply K2, Hs. Qed.
Lemma agC clob m' r v : In r clob -> agreeC m clob m' -> agreeC m clob (setr m' r v).
Proof. intros Hr K s Hs. cbn [setr regs]. rewrite rupd_neq by (intros ->; exact (Hs Hr)). apply K, Hs. Qed.
Section GG.
Variable clob : list reg.
Variable sub : bool.
Variables x y : nat -> Z.
Hypothesis Hx : forall j, 0 <= x j < B.
Hypothesis Hy : forall j, 0 <= y j < B.
Lemma gn i m' M f v : Gch m pd clob sub x y i (m', None) -> agreeC m clob M -> mem M = mem m' -> cf f = opc sub (opv sub (x i) (y i) (b2z (cf (fl m')))) -> v = opv sub (x i) (y i) (b2z (cf (fl m'))) mod B ->
  Gch m pd clob sub x y (S i) (setf (setm M (dst i) v) f, None).
Proof. intros G A E F ->. apply (g_next n m pd Hn clob sub x y Hx Hy i m' M f); assumption. Qed.
Lemma g1 M f v : agreeC m clob M -> mem M = mem m -> cf f = opc sub (opv sub (x 0%nat) (y 0%nat) 0) -> v = opv sub (x 0%nat) (y 0%nat) 0 mod B -> Gch m pd clob sub x y 1 (setf (setm M (dst 0) v) f, None).
Proof. intros A E F ->. apply (g_first n m pd Hn clob sub x y Hx Hy M f); assumption. Qed.
End GG.
Section Q.
Hypothesis Hq : ptr (lay Sq) n.
Hypothesis Dq : apart n (lay Sq) pd.
Notation q := (vals m (lay Sq) n).
Lemma q_same m' : untouched n m' -> vals m' (lay Sq) n = q.
Proof. intros U. apply es_ext. intros j Hj. apply U. intros i Hi. destruct Dq; lia. Qed.
Lemma fin_of clob m1 v s : In RAX clob -> agreeC m clob m1 -> untouched n m1 -> Final n m1 pd v s -> FinalC clob v s.
Proof.
  intros Hc G U [K1 K2 K3 K4 K5]. constructor; [exact K1| | |exact K4|exact K5].
  - intros r Hr. rewrite K2 by (intros ->; exact (Hr Hc)). apply G, Hr.
  - intros x Hx. rewrite K3 by exact Hx. apply U, Hx.
Qed.
Lemma fin_add clob x y m1 : In RAX clob -> ~ In RDI clob -> words m1 -> Gch m pd clob true x y n (m1, None) -> - q <= es x n - es y n < q -> ww lay ([J Cnc l_done] ++ asm_addq n ++ [Lab l_done]) (FinalC clob ((es x n - es y n) mod q)) (m1, None).
Proof.
  intros Hc Hd W [K1 K2 K3 K4 K5] R. cbn [fst snd] in *. unfold sg in K5. pose proof (q_same m1 K3) as Eq. eapply ww_mono; [|apply (tail_add lay n m1 pd W) with (V := es x n - es y n)].
  - intros s F. rewrite Eq in F. exact (fin_of clob m1 _ s Hc K2 K3 F).
  - rewrite K2 by exact Hd. exact Epd.
  - exact Hpd.
  - exact Hn.
  - exact Hq.
  - exact Dq.
  - lia.
  - rewrite Eq. exact R.
Qed.
Lemma fin_sub clob x y m1 : In RAX clob -> ~ In RDI clob -> words m1 -> Gch m pd clob false x y n (m1, None) -> 0 <= es x n + es y n < 2 * q ->
  ww lay ([J Cc l_sq] ++ flat_map (fun i => [I Imov [OReg RAX; at8 RDI (n - i - 1)]; I Icmp [OReg RAX; q8 (n - i - 1)]; J Cc l_done; J Cnz l_sq]) (seq 0 n) ++ [Lab l_sq] ++ asm_subq n ++ [Lab l_done]) (FinalC clob ((es x n + es y n) mod q)) (m1, None).
Proof.
  intros Hc Hd W [K1 K2 K3 K4 K5] R. cbn [fst snd] in *. unfold sg in K5. pose proof (q_same m1 K3) as Eq. eapply ww_mono; [|apply (tail_sub lay n m1 pd W) with (V := es x n + es y n)].
  - intros s F. rewrite Eq in F. exact (fin_of clob m1 _ s Hc K2 K3 F).
  - rewrite K2 by exact Hd. exact Epd.
  - exact Hpd.
  - exact Hn.
  - exact Hq.
  - exact Dq.
  - lia.
  - rewrite Eq. exact R.
Qed.
Section Op.
Variable pa : Z.
Hypothesis Pa : ptr pa n.
Hypothesis Sa : same_or_apart n pa pd.
Notation xa := (fun j => mem m (pa + 8 * Z.of_nat j)).
Lemma xa_range j : 0 <= xa j < B. Proof. apply Hm. Qed.
Lemma xa_keep i m' : untouched i m' -> (i < n)%nat -> mem m' (pa + 8 * Z.of_nat i) = xa i.
Proof. intros U Hi. apply U. intros j Hj. apply sep_ne with n; [exact Sa|lia]. Qed.
Ltac nin := cbn [In]; intuition discriminate.
Lemma rawAddLS_ww : regs m RSI = pa -> vals m pa n < q -> regs m RDX <= q -> ww lay (asm_rawAddLS n) (FinalC [RAX; RDX] ((regs m RDX + vals m pa n) mod q)) (m, None).
Proof.
  intros Ea Xq Dl. set (d := regs m RDX) in *. assert (Rd : 0 <= d < B) by apply Hm. pose proof (vals_range n m Hm pa) as RX.
  unfold asm_rawAddLS. rewrite app_assoc. apply ww_app. apply ww_mono with (Q := fun s => Gch m pd [RAX; RDX] false (sht d) xa n s /\ words (fst s)); [|apply ww_words; [exact Hm|raw_ok|]; apply ww_app].
  { intros [m1 sk] [G W]. pose proof G as [E _ _ _ _]. cbn [fst snd] in *. subst sk. rewrite <- (es_sht d n Hn). apply (fin_sub [RAX; RDX] (sht d) xa m1); [nin|nin|exact W|exact G|].
    rewrite es_sht by exact Hn. change (es xa n) with (vals m pa n). lia. }
  change (I Iadd) with (I (addOp 0)). eapply w_add; [apply loc_at8 with n; [exact Ea|exact Pa|lia]|]. intros f Hf. cbn [cin Nat.eqb] in *. fold d in Hf.
  eapply w_st; [apply loc_at8 with n; [exact Epd|exact Hpd|lia]|]. apply ww_nil.
  apply ww_loop1; [exact Hn| |].
  - intros i [m' sk] Hi G. pose proof G as [K1 K2 K3 K4 K5]. cbn [fst snd] in *. subst sk. apply w_imm. rewrite <- (addOp_S i) by lia.
    eapply w_add; [apply loc_at8 with n; [cbn [setr regs]; rewrite rupd_neq, K2 by (try nin; discriminate); exact Ea|exact Pa|lia]|]. intros f' Hf'. cbn [setr regs mem] in *. rewrite rupd_eq in Hf'. rewrite rupd_eq. rewrite xa_keep in * by (exact K3 || lia).
    rewrite cin_1 in * by lia. change (fl _) with (fl m') in *.
    eapply w_st; [apply loc_at8 with n; [cbn [setf setr regs]; rewrite !rupd_neq, K2 by (try nin; discriminate); exact Epd|exact Hpd|lia]|]. apply ww_nil. cbn [setf setr regs]. rewrite rupd_eq.
    apply (gn [RAX; RDX] false (sht d) xa ltac:(intros; apply sht_range, Rd) ltac:(intros; apply xa_range) i m' (setr (setr m' RDX 0) RDX ((0 + xa i + b2z (cf (fl m'))) mod B)) f' _ G); rewrite ?(sht_S d i) by lia; [|reflexivity|exact Hf'|reflexivity].
    apply agC, agC; [nin|nin|exact K2].
  - cbn [setr setf regs mem fl]. rewrite rupd_eq.
    apply (g1 [RAX; RDX] false (sht d) xa ltac:(intros; apply sht_range, Rd) ltac:(intros; apply xa_range) (setr m RDX ((d + xa 0%nat + 0) mod B)) f); [|reflexivity|exact Hf|reflexivity].
    apply agC; [nin|intros r _; reflexivity].
Qed.
Lemma rawSubLS_ww : regs m RSI = pa -> vals m pa n < q -> regs m RDX <= q -> ww lay (asm_rawSubLS n) (FinalC [RAX; RDX] ((vals m pa n - regs m RDX) mod q)) (m, None).
Proof.
  intros Ea Xq Dl. set (d := regs m RDX) in *. assert (Rd : 0 <= d < B) by apply Hm. pose proof (vals_range n m Hm pa) as RX.
  unfold asm_rawSubLS. rewrite app_assoc. apply ww_app. apply ww_mono with (Q := fun s => Gch m pd [RAX; RDX] true xa (sht d) n s /\ words (fst s)); [|apply ww_words; [exact Hm|raw_ok|]; apply ww_app].
  { intros [m1 sk] [G W]. pose proof G as [E _ _ _ _]. cbn [fst snd] in *. subst sk. rewrite <- (es_sht d n Hn). apply (fin_add [RAX; RDX] xa (sht d) m1); [nin|nin|exact W|exact G|].
    rewrite es_sht by exact Hn. change (es xa n) with (vals m pa n). lia. }
  eapply w_ld; [apply loc_at8 with n; [exact Ea|exact Pa|lia]|]. change (I Isub) with (I (subOp 0)). apply w_subr. intros f Hf. cbn [cin Nat.eqb setr regs] in *. rewrite rupd_eq in *. rewrite rupd_neq in * by discriminate. fold d in Hf |- *.
  eapply w_st; [apply loc_at8 with n; [exact Epd|exact Hpd|lia]|]. apply w_imm, ww_nil.
  apply ww_mono with (Q := fun s => Gch m pd [RAX; RDX] true xa (sht d) n s /\ regs (fst s) RDX = 0); [intros s [H _]; exact H|].
  apply (ww_loop1 lay (fun i s => Gch m pd [RAX; RDX] true xa (sht d) i s /\ regs (fst s) RDX = 0)); [exact Hn| |].
  - intros i [m' sk] Hi [G Z0]. pose proof G as [K1 K2 K3 K4 K5]. cbn [fst snd] in *. subst sk.
    eapply w_ld; [apply loc_at8 with n; [rewrite K2 by nin; exact Ea|exact Pa|lia]|]. rewrite xa_keep by (exact K3 || lia). rewrite <- (subOp_S i) by lia.
    apply w_subr. intros f' Hf'. cbn [setr regs mem] in *. rewrite rupd_eq in *. rewrite rupd_neq in * by discriminate. rewrite Z0 in *. rewrite cin_1 in * by lia. cbn [fl] in *.
    eapply w_st; [apply loc_at8 with n; [cbn [setf setr regs]; rewrite !rupd_neq, K2 by (try nin; discriminate); exact Epd|exact Hpd|lia]|]. apply ww_nil. cbn [setf setr regs fst]. rewrite rupd_eq. split; [|exact Z0].
    apply (gn [RAX; RDX] true xa (sht d) ltac:(intros; apply xa_range) ltac:(intros; apply sht_range, Rd) i m' (setr (setr m' RAX (xa i)) RAX ((xa i - 0 - b2z (cf (fl m'))) mod B)) f' _ G); rewrite ?(sht_S d i) by lia; [|reflexivity|exact Hf'|reflexivity].
    apply agC, agC; [nin|nin|exact K2].
  - split; [|cbn [fst setr regs]; apply rupd_eq]. apply (g_setr _ _ _ _ 1 _ RDX 0); [nin|]. cbn [setr setf regs mem fl]. rewrite rupd_eq.
    apply (g1 [RAX; RDX] true xa (sht d) ltac:(intros; apply xa_range) ltac:(intros; apply sht_range, Rd) (setr (setr m RAX (xa 0%nat)) RAX ((xa 0%nat - d - 0) mod B)) f); [|reflexivity|exact Hf|reflexivity].
    apply agC, agC; [nin|nin|intros r _; reflexivity].
Qed.
Lemma rawSubSL_ww : regs m RDX = pa -> vals m pa n < q -> regs m RSI < q -> ww lay (asm_rawSubSL n) (FinalC [RAX; RSI] ((regs m RSI - vals m pa n) mod q)) (m, None).
Proof.
  intros Ea Xq Dl. set (d := regs m RSI) in *. assert (Rd : 0 <= d < B) by apply Hm. pose proof (vals_range n m Hm pa) as RX.
  unfold asm_rawSubSL. rewrite app_assoc. apply ww_app. apply ww_mono with (Q := fun s => Gch m pd [RAX; RSI] true (sht d) xa n s /\ words (fst s)); [|apply ww_words; [exact Hm|raw_ok|]; apply ww_app].
  { intros [m1 sk] [G W]. pose proof G as [E _ _ _ _]. cbn [fst snd] in *. subst sk. rewrite <- (es_sht d n Hn). apply (fin_add [RAX; RSI] (sht d) xa m1); [nin|nin|exact W|exact G|].
    rewrite es_sht by exact Hn. change (es xa n) with (vals m pa n). lia. }
  change (I Isub) with (I (subOp 0)). eapply w_sub; [apply loc_at8 with n; [exact Ea|exact Pa|lia]|]. intros f Hf. cbn [cin Nat.eqb] in *. fold d in Hf.
  eapply w_st; [apply loc_at8 with n; [exact Epd|exact Hpd|lia]|]. apply ww_nil.
  apply ww_loop1; [exact Hn| |].
  - intros i [m' sk] Hi G. pose proof G as [K1 K2 K3 K4 K5]. cbn [fst snd] in *. subst sk. apply w_imm. rewrite <- (subOp_S i) by lia.
    eapply w_sub; [apply loc_at8 with n; [cbn [setr regs]; rewrite rupd_neq, K2 by (try nin; discriminate); exact Ea|exact Pa|lia]|]. intros f' Hf'. cbn [setr regs mem] in *. rewrite rupd_eq in Hf'. rewrite rupd_eq. rewrite xa_keep in * by (exact K3 || lia).
    rewrite cin_1 in * by lia. change (fl _) with (fl m') in *.
    eapply w_st; [apply loc_at8 with n; [cbn [setf setr regs]; rewrite !rupd_neq, K2 by (try nin; discriminate); exact Epd|exact Hpd|lia]|]. apply ww_nil. cbn [setf setr regs]. rewrite rupd_eq.
    apply (gn [RAX; RSI] true (sht d) xa ltac:(intros; apply sht_range, Rd) ltac:(intros; apply xa_range) i m' (setr (setr m' RAX 0) RAX ((0 - xa i - b2z (cf (fl m'))) mod B)) f' _ G); rewrite ?(sht_S d i) by lia; [|reflexivity|exact Hf'|reflexivity].
    apply agC, agC; [nin|nin|exact K2].
  - cbn [setr setf regs mem fl]. rewrite rupd_eq.
    apply (g1 [RAX; RSI] true (sht d) xa ltac:(intros; apply sht_range, Rd) ltac:(intros; apply xa_range) (setr m RSI ((d - xa 0%nat - 0) mod B)) f); [|reflexivity|exact Hf|reflexivity].
    apply agC; [nin|intros r _; reflexivity].
Qed.
End Op.
End Q.
End R.
