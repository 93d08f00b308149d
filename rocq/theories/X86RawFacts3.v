(** Proofs about the straight-line raw routines: the routines. *)
From Coq Require Import ZArith List Bool Arith Lia.
From Verif Require Import Limbs LimbsFacts X86 X86Sim X86Mont X86Call X86Raw X86RawFacts X86RawFacts2.
Import ListNotations.
Open Scope Z_scope.

(** the effect of a call which uses no stack, [l] being stored at [p]: no other
    word is written, and of the registers only those of [clob] and rsp change *)
Definition stored (clob : list reg) (p : Z) (l : list Z) (m m' : mach) : Prop :=
  (forall j, (j < length l)%nat -> mem m' (p + 8 * Z.of_nat j) = nth j l 0) /\
  (forall x, (forall j, (j < length l)%nat -> x <> p + 8 * Z.of_nat j) -> mem m' x = mem m x) /\
  (forall r, ~ In r clob -> r <> RSP -> regs m' r = regs m r) /\ regs m' RSP = (regs m RSP + 8) mod B.
(** two arrays of [n] words which are the same or do not overlap *)
Definition apart (n : nat) (p p' : Z) : Prop := p + 8 * Z.of_nat n <= p' \/ p' + 8 * Z.of_nat n <= p.
Definition same_or_apart (n : nat) (p p' : Z) : Prop := p = p' \/ apart n p p'.

Lemma es_top f g n k : (k < n)%nat -> (forall j, (j < n)%nat -> 0 <= f j < B) -> (forall j, (j < n)%nat -> 0 <= g j < B) -> (forall j, (k < j < n)%nat -> f j = g j) -> f k < g k -> es f n < es g n.
Proof.
  induction n as [|n IH]; intros Hk Hf Hg He Hl; [lia|]. cbn [es]. destruct (Nat.eq_dec k n) as [->|N].
  - pose proof (es_bound f n (fun j Hj => Hf j ltac:(lia))) as B1. pose proof (es_bound g n (fun j Hj => Hg j ltac:(lia))) as B2. nia.
  - rewrite (He n) by lia. assert (es f n < es g n) by (apply IH; [lia|intros; apply Hf; lia|intros; apply Hg; lia|intros; apply He; lia|exact Hl]). lia.
Qed.

Lemma es_pos f k : (forall j, 0 <= f j) -> (exists j, (j < k)%nat /\ f j <> 0) -> 0 < es f k.
Proof.
  intros H. induction k as [|k IH]; intros (j & Hj & Hf); [lia|]. cbn [es]. pose proof (Bpow_pos k). assert (0 <= es f k) by (clear IH Hj Hf; induction k as [|k IH]; cbn [es]; [lia|]; pose proof (H k); pose proof (Bpow_pos k); assert (0 <= es f k) by (apply IH; lia); nia).
  pose proof (H k) as Hk. destruct (Nat.eq_dec j k) as [->|N]; [nia|]. assert (0 < es f k) by (apply IH; exists j; split; [lia|exact Hf]). nia.
Qed.
Lemma es_zero f k : (forall j, (j < k)%nat -> f j = 0) -> es f k = 0.
Proof. intros H. induction k as [|k IH]; [reflexivity|]. cbn [es]. rewrite IH, H by (intros; try apply H; lia). lia. Qed.

Section R.
Variable lay : sym -> Z.
Variable n : nat.
Variable m : mach.
Variable pd : Z.
Hypothesis Hm : words m.
Hypothesis Epd : regs m RDI = pd.
Hypothesis Hpd : ptr pd n.
Notation dst j := (pd + 8 * Z.of_nat j).
Hypothesis Hret : forall j, (j < n)%nat -> regs m RSP <> dst j.
Notation out := (out pd).
Notation agree := (agree m).
Notation untouched := (untouched m pd).
Record Final (v : Z) (s : st) : Prop := {
  fi_sk : snd s = None; fi_agree : agree (fst s); fi_un : untouched n (fst s);
  fi_rng : forall j, (j < n)%nat -> 0 <= mem (fst s) (dst j) < B;
  fi_val : out (fst s) n = v }.
Lemma call_of code v : ww lay code (Final v) (m, None) -> exists m' l, call lay code m = Some m' /\ limbs_ok n l /\ eval l = v /\ stored [RAX] pd l m m'.
Proof.
  intros ([m' sk] & E & [K1 K2 K3 K4 K5]). cbn [fst snd] in *. subst sk. set (l := map (fun j => mem m' (dst j)) (seq 0 n)).
  assert (Ll : length l = n) by (unfold l; rewrite map_length, seq_length; reflexivity).
  assert (Nl : forall j, (j < n)%nat -> nth j l 0 = mem m' (dst j)).
  { intros j Hj. unfold l. rewrite (nth_indep _ 0 ((fun j => mem m' (dst j)) 0%nat)) by (rewrite map_length, seq_length; exact Hj). rewrite (map_nth (fun j => mem m' (dst j))), seq_nth by exact Hj. reflexivity. }
  exists (setr m' RSP ((regs m RSP + 8) mod B)), l. split; [|split; [|split]].
  - unfold call. rewrite E, K2 by discriminate. rewrite K3 by exact Hret. rewrite !Z.eqb_refl. reflexivity.
  - split; [exact Ll|]. unfold l. apply Forall_map, Forall_forall. intros j Hj. apply in_seq in Hj. apply K4. lia.
  - rewrite <- K5. unfold X86RawFacts2.out. rewrite es_eval. reflexivity.
  - unfold stored. rewrite Ll. cbn [setr regs mem]. split; [intros j Hj; rewrite Nl by exact Hj; reflexivity|]. split; [exact K3|]. split; [|apply rupd_eq].
    intros r Hr Hs. rewrite rupd_neq by exact Hs. apply K2. cbn [In] in Hr. intuition.
Qed.
Lemma sep_ne p i j : same_or_apart n p pd -> (j < i < n)%nat -> p + 8 * Z.of_nat i <> dst j.
Proof. intros [->|[H|H]] Hij; lia. Qed.
Lemma sep_ne' p i j : apart n p pd -> (i < n)%nat -> (j < n)%nat -> p + 8 * Z.of_nat i <> dst j.
Proof. intros [H|H] Hi Hj; lia. Qed.
Definition vals (p : Z) (k : nat) : Z := es (fun j => mem m (p + 8 * Z.of_nat j)) k.
Lemma vals_range p : 0 <= vals p n < B ^ Z.of_nat n.
Proof. apply es_bound. intros j _. apply Hm. Qed.
Lemma out_range m' : (forall j, (j < n)%nat -> 0 <= mem m' (dst j) < B) -> 0 <= out m' n < B ^ Z.of_nat n.
Proof. intros H. apply es_bound, H. Qed.

Record Zr (i : nat) (s : st) : Prop := { zr_sk : snd s = None; zr_agree : agree (fst s); zr_un : untouched i (fst s); zr_rax : regs (fst s) RAX = 0; zr_0 : forall j, (j < i)%nat -> mem (fst s) (dst j) = 0 }.
Lemma zr_loop m0 : agree m0 -> mem m0 = mem m -> regs m0 RAX = 0 -> ww lay (map (fun i => I Imov [at8 RDI i; OReg RAX]) (seq 0 n)) (Zr n) (m0, None).
Proof.
  intros G0 M0 A0. rewrite flat_map_single. eapply ww_mono; [|apply (ww_loop lay Zr _ n 0)]; [auto| |].
  - intros i [m' sk] Hi [K1 K2 K3 K4 K5]. cbn [fst snd] in *. subst sk. eapply w_st; [eapply loc_dst with (n := n); eauto; lia|]. apply ww_nil. rewrite K4. constructor; cbn [fst snd]; [reflexivity|exact K2|apply untouched_st; exact K3|exact K4|].
    intros j Hj. cbn [setm mem]. destruct (Nat.eq_dec j i) as [->|N]; [apply mupd_eq|]. rewrite mupd_neq by lia. apply K5. lia.
  - constructor; cbn [fst snd]; [reflexivity|exact G0|intros x _; rewrite M0; reflexivity|exact A0|intros; lia].
Qed.
Lemma Zr_Final s : Zr n s -> Final 0 s.
Proof.
  intros [K1 K2 K3 K4 K5]. constructor; [exact K1|exact K2|exact K3| |].
  - intros j Hj. rewrite K5 by exact Hj. pose proof B_pos. lia.
  - unfold X86RawFacts2.out. apply es_zero. exact K5.
Qed.
(** *** rawAdd *)
Hypothesis Hn : (1 <= n)%nat.
Section WithQ.
Hypothesis Hq : ptr (lay Sq) n.
Hypothesis Dq : apart n (lay Sq) pd.
Notation q := (vals (lay Sq) n).
Notation qj j := (mem m (lay Sq + 8 * Z.of_nat j)).
Section Cmp.
Variable m1 : mach.
Hypothesis U1 : untouched n m1.
Hypothesis R1 : forall j, (j < n)%nat -> 0 <= mem m1 (dst j) < B.
Record Cmp (i : nat) (s : st) : Prop := {
  cm_agree : agree (fst s); cm_mem : mem (fst s) = mem m1; cm_rax : i = 0%nat -> regs (fst s) RAX = mem m1 (dst (n - 1));
  cm_or : (snd s = None /\ (forall j, (n - i <= j < n)%nat -> mem m1 (dst j) = qj j)) \/ (snd s = Some l_done /\ out m1 n < q) \/ (snd s = Some l_sq /\ q <= out m1 n) }.
Lemma cmp_loop : agree m1 -> regs m1 RAX = mem m1 (dst (n - 1)) -> ww lay (flat_map (fun i => (if Nat.eqb i 0 then [] else [I Imov [OReg RAX; at8 RDI (n - i - 1)]]) ++ [I Icmp [OReg RAX; q8 (n - i - 1)]; J Cc l_done; J Cnz l_sq]) (seq 0 n)) (Cmp n) (m1, None).
Proof.
  intros G1 E1. eapply ww_mono; [|apply (ww_loop lay Cmp _ n 0)]; [auto| |].
  - intros i [m' sk] Hi [K1 K2 K3 K4]. cbn [fst snd] in *. destruct K4 as [[Es K4]|K4].
    2:{ assert (exists l, sk = Some l /\ (l = l_done \/ l = l_sq)) as (l & -> & Hl) by (destruct K4 as [[E _]|[E _]]; eauto).
        apply ww_skip; [destruct Hl; subst l; destruct (Nat.eqb i 0); reflexivity|]. constructor; cbn [fst snd]; [exact K1|exact K2|discriminate|right; exact K4]. }
    subst sk. set (k := (n - i - 1)%nat). assert (Hk : (k < n)%nat) by (unfold k; lia).
    assert (exists m2, agree m2 /\ mem m2 = mem m1 /\ regs m2 RAX = mem m1 (dst k) /\ forall code Q, ww lay code Q (m2, None) -> ww lay ((if Nat.eqb i 0 then [] else [I Imov [OReg RAX; at8 RDI k]]) ++ code) Q (m', None)) as (m2 & G2 & M2 & A2 & W2).
    { destruct (Nat.eqb_spec i 0) as [Ei|Ei].
      - exists m'. split; [exact K1|]. split; [exact K2|]. split; [rewrite K3 by exact Ei; do 3 f_equal; unfold k; lia|]. intros code Q H. exact H.
      - exists (setr m' RAX (mem m' (dst k))). split; [apply agree_rax, K1|]. split; [exact K2|]. split; [cbn [setr regs]; rewrite rupd_eq, K2; reflexivity|]. intros code Q H. cbn [app]. eapply w_ld; [eapply loc_dst with (n := n); eauto|exact H]. }
    apply W2. clear W2. pose proof (R1 k Hk) as Rk. assert (Eq : mem m2 (lay Sq + 8 * Z.of_nat k) = qj k) by (rewrite M2; apply U1; intros j Hj; apply sep_ne'; assumption).
    apply w_cmp with (lay Sq + 8 * Z.of_nat k); [apply loc_q8 with n; [exact Hq|exact Hk]|rewrite A2; exact Rk|rewrite Eq; apply Hm|]. rewrite A2, Eq. intros f Hcf Hzf.
    set (m3 := setf m2 f). apply w_j. cbn [holds_cond]. change (fl m3) with f. rewrite Hcf. destruct (Z.ltb_spec (mem m1 (dst k)) (qj k)) as [Lt|Ge].
    + apply ww_skip; [reflexivity|]. constructor; cbn [fst snd]; [exact G2|exact M2|discriminate|]. right. left. split; [reflexivity|]. apply es_top with k; [exact Hk|exact R1|intros; apply Hm|intros j Hj; apply K4; unfold k in *; lia|exact Lt].
    + apply w_j. cbn [holds_cond]. change (fl m3) with f. rewrite Hzf. apply ww_nil. destruct (Z.eqb_spec (mem m1 (dst k)) (qj k)) as [Ee|Ne]; cbn [negb].
      * constructor; cbn [fst snd]; [exact G2|exact M2|discriminate|]. left. split; [reflexivity|]. intros j Hj. destruct (Nat.eq_dec j k) as [->|N]; [exact Ee|]. apply K4. unfold k in *. lia.
      * constructor; cbn [fst snd]; [exact G2|exact M2|discriminate|]. right. right. split; [reflexivity|]. apply Z.lt_le_incl. apply es_top with k; [exact Hk|intros; apply Hm|exact R1|intros j Hj; symmetry; apply K4; unfold k in *; lia|lia].
  - constructor; cbn [fst snd]; [exact G1|reflexivity|auto|]. left. split; [reflexivity|]. intros; lia.
Qed.
End Cmp.
Lemma asm_subq_nolab l : nolab l (asm_subq n) = true.
Proof. apply nolab_flat. reflexivity. Qed.
Lemma rawAdd_ww pa pb : regs m RSI = pa -> regs m RDX = pb -> ptr pa n -> ptr pb n -> same_or_apart n pa pd -> same_or_apart n pb pd -> vals pa n < q -> vals pb n < q ->
  ww lay (asm_rawAdd n) (Final ((vals pa n + vals pb n) mod q)) (m, None).
Proof.
  intros Ea Eb Pa Pb Sa Sb Xq Yq. pose proof (vals_range pa) as RX. pose proof (vals_range pb) as RY. pose proof (vals_range (lay Sq)) as RQ.
  unfold asm_rawAdd. apply ww_app.
  eapply ww_mono; [|apply (chain lay n m pd Hm Epd Hpd (at8 RSI) (at8 RDX) (fun j => pa + 8 * Z.of_nat j) (fun j => pb + 8 * Z.of_nat j)) with (sub := false)].
  2:{ intros i m' Hi G. apply loc_at8 with n; [rewrite G by discriminate; exact Ea|exact Pa|exact Hi]. }
  2:{ intros i m' Hi G. apply loc_at8 with n; [rewrite G by discriminate; exact Eb|exact Pb|exact Hi]. }
  2:{ intros i j Hij. apply sep_ne; assumption. }
  2:{ intros i j Hij. apply sep_ne; assumption. }
  intros [m1 sk] [K1 K2 K3 K4 K5 K6]. cbn [fst snd] in *. subst sk. change (out m1 n + cin n m1 * B ^ Z.of_nat n = vals pa n + vals pb n) in K5. pose proof (out_range m1 K4) as R1.
  assert (Ec : cin n m1 = b2z (cf (fl m1))) by (unfold cin; destruct (Nat.eqb_spec n 0); [lia|reflexivity]). rewrite Ec in K5. clear Ec.
  (* the subtraction *)
  assert (SUB : forall m2, agree m2 -> mem m2 = mem m1 -> q <= vals pa n + vals pb n -> ww lay (asm_subq n ++ [Lab l_done]) (Final ((vals pa n + vals pb n) mod q)) (m2, None)).
  { intros m2 G2 M2 Hge. apply ww_app. eapply ww_mono; [|apply (acc lay n m pd Hm Epd Hpd Hq Dq true m2 G2); [intros x Hx; rewrite M2; apply K3, Hx|rewrite M2; exact K4]].
    intros [m3 sk] [A1 A2 A3 A4 A5 A6]. cbn [fst snd] in *. subst sk. apply w_lab, ww_nil. cbv zeta in A6. change (es (fun j => mem m (lay Sq + 8 * Z.of_nat j)) n) with q in A6.
    constructor; cbn [fst snd]; [reflexivity|exact A2|exact A3|exact A5|]. pose proof (out_range m3 A5) as R3. assert (E2 : out m2 n = out m1 n) by (unfold X86RawFacts2.out; rewrite M2; reflexivity). rewrite E2 in A6.
    pose proof (cin_range n m3). pose proof (b2z_range (cf (fl m1))). pose proof (Bpow_pos n).
    assert (Eo : out m3 n = vals pa n + vals pb n - q).
    { assert (D : cin n m3 = 0 \/ cin n m3 = 1) by lia. assert (D' : b2z (cf (fl m1)) = 0 \/ b2z (cf (fl m1)) = 1) by lia. destruct D as [D|D], D' as [D'|D']; rewrite D in A6; rewrite D' in K5; lia. } rewrite <- (Z.mod_add _ (-1)), Z.mod_small by lia. lia. }
  apply ww_app, w_j. cbn [holds_cond]. destruct (cf (fl m1)) eqn:Ecf; cbn [b2z] in K5.
  - apply ww_nil. rewrite app_assoc. apply ww_app.  eapply ww_mono; [|apply ww_app, ww_skip with (Q := fun s => ww lay [Lab l_sq] (fun s => s = (m1, None)) s)].
    + intros s ->. apply SUB; [exact K2|reflexivity|lia].
    + apply nolab_flat. intros i. destruct (Nat.eqb i 0); reflexivity.
    + apply w_lab_hit, ww_nil. reflexivity.
  - apply ww_nil, ww_app. eapply ww_mono; [|apply (cmp_loop m1 K3 K4 K2)].
    2:{ apply K6. lia. }
    intros [m2 sk] [C1 C2 C3 C4]. cbn [fst snd] in *. destruct C4 as [[-> Ce]|[[-> Cl]|[-> Cg]]].
    + apply w_lab. apply SUB; [exact C1|exact C2|]. assert (out m1 n = q) by (apply es_ext; intros j Hj; apply Ce; lia). lia.
    + cbn [app]. change (Lab l_sq :: asm_subq n ++ [Lab l_done]) with ((Lab l_sq :: asm_subq n) ++ [Lab l_done]). apply ww_app, ww_skip; [cbn [nolab]; rewrite asm_subq_nolab; reflexivity|]. apply w_lab_hit, ww_nil.
      assert (E2 : out m2 n = out m1 n) by (unfold X86RawFacts2.out; rewrite C2; reflexivity).
      constructor; cbn [fst snd]; [reflexivity|exact C1|intros x Hx; rewrite C2; apply K3, Hx|rewrite C2; exact K4|]. rewrite Z.mod_small by lia. lia.
    + cbn [app]. apply w_lab_hit. apply SUB; [exact C1|exact C2|lia].
Qed.
(** *** rawSub *)
Lemma rawSub_ww pa pb : regs m RSI = pa -> regs m RDX = pb -> ptr pa n -> ptr pb n -> same_or_apart n pa pd -> same_or_apart n pb pd -> vals pa n < q -> vals pb n < q ->
  ww lay (asm_rawSub n) (Final ((vals pa n - vals pb n) mod q)) (m, None).
Proof.
  intros Ea Eb Pa Pb Sa Sb Xq Yq. pose proof (vals_range pa) as RX. pose proof (vals_range pb) as RY. pose proof (vals_range (lay Sq)) as RQ.
  unfold asm_rawSub. apply ww_app.
  eapply ww_mono; [|apply (chain lay n m pd Hm Epd Hpd (at8 RSI) (at8 RDX) (fun j => pa + 8 * Z.of_nat j) (fun j => pb + 8 * Z.of_nat j)) with (sub := true)].
  2:{ intros i m' Hi G. apply loc_at8 with n; [rewrite G by discriminate; exact Ea|exact Pa|exact Hi]. }
  2:{ intros i m' Hi G. apply loc_at8 with n; [rewrite G by discriminate; exact Eb|exact Pb|exact Hi]. }
  2:{ intros i j Hij. apply sep_ne; assumption. }
  2:{ intros i j Hij. apply sep_ne; assumption. }
  intros [m1 sk] [K1 K2 K3 K4 K5 K6]. cbn [fst snd] in *. subst sk. change (out m1 n - cin n m1 * B ^ Z.of_nat n = vals pa n - vals pb n) in K5. pose proof (out_range m1 K4) as R1.
  assert (Ec : cin n m1 = b2z (cf (fl m1))) by (unfold cin; destruct (Nat.eqb_spec n 0); [lia|reflexivity]). rewrite Ec in K5. clear Ec.
  apply ww_app, w_j, ww_nil. cbn [holds_cond]. destruct (cf (fl m1)); cbn [b2z negb] in *.
  - apply ww_app. eapply ww_mono; [|apply (acc lay n m pd Hm Epd Hpd Hq Dq false m1 K2 K3 K4)]. intros [m3 sk] [A1 A2 A3 A4 A5 A6]. cbn [fst snd] in *. subst sk. apply w_lab, ww_nil. cbv zeta in A6. change (es (fun j => mem m (lay Sq + 8 * Z.of_nat j)) n) with q in A6.
    constructor; cbn [fst snd]; [reflexivity|exact A2|exact A3|exact A5|]. pose proof (out_range m3 A5) as R3. pose proof (cin_range n m3). pose proof (Bpow_pos n).
    assert (Eo : out m3 n = vals pa n - vals pb n + q).
    { assert (D : cin n m3 = 0 \/ cin n m3 = 1) by lia. destruct D as [D|D]; rewrite D in A6; lia. } rewrite <- (Z.mod_add _ 1), Z.mod_small by lia. lia.
  - apply ww_app, ww_skip; [apply nolab_flat; reflexivity|]. apply w_lab_hit, ww_nil. constructor; cbn [fst snd]; [reflexivity|exact K2|exact K3|exact K4|]. rewrite Z.mod_small by lia. lia.
Qed.
(** *** rawNeg *)
Section Neg.
Variable pa : Z.
Hypothesis Ea : regs m RSI = pa.
Hypothesis Pa : ptr pa n.
Hypothesis Sa : same_or_apart n pa pd.
Notation aj j := (mem m (pa + 8 * Z.of_nat j)).
Record Nz (i : nat) (s : st) : Prop := {
  nz_agree : agree (fst s); nz_mem : mem (fst s) = mem m; nz_rax : regs (fst s) RAX = 0;
  nz_or : (snd s = None /\ forall j, (j < i)%nat -> aj j = 0) \/ (snd s = Some l_neg /\ 0 < vals pa n) }.
Lemma nz_loop m0 : agree m0 -> mem m0 = mem m -> regs m0 RAX = 0 -> ww lay (flat_map (fun i => [I Icmp [at8 RSI i; OReg RAX]; J Cnz l_neg]) (seq 0 n)) (Nz n) (m0, None).
Proof.
  intros G0 M0 A0. eapply ww_mono; [|apply (ww_loop lay Nz _ n 0)]; [auto| |].
  - intros i [m' sk] Hi [K1 K2 K3 K4]. cbn [fst snd] in *. destruct K4 as [[-> K4]|[-> K4]].
    2:{ apply ww_skip; [reflexivity|]. constructor; cbn [fst snd]; auto. }
    apply w_cmpm with (pa + 8 * Z.of_nat i); [apply loc_at8 with n; [rewrite K1 by discriminate; exact Ea|exact Pa|lia]|rewrite K3; pose proof B_pos; lia|rewrite K2; apply Hm|].
    intros f Hf. rewrite K2, K3 in Hf. apply w_j. cbn [holds_cond setf fl]. rewrite Hf. apply ww_nil. destruct (Z.eqb_spec (aj i) 0) as [E|E]; cbn [negb].
    + constructor; cbn [fst snd]; [exact K1|exact K2|exact K3|]. left. split; [reflexivity|]. intros j Hj. destruct (Nat.eq_dec j i) as [->|N]; [exact E|]. apply K4. lia.
    + constructor; cbn [fst snd]; [exact K1|exact K2|exact K3|]. right. split; [reflexivity|]. apply es_pos; [intros; apply Hm|]. exists i. split; [lia|exact E].
  - constructor; cbn [fst snd]; auto. left. split; [reflexivity|]. intros; lia.
Qed.
Lemma rawNeg_ww : vals pa n < q -> ww lay (asm_rawNeg n) (Final ((- vals pa n) mod q)) (m, None).
Proof.
  intros Xq. pose proof (vals_range pa) as RX. pose proof (vals_range (lay Sq)) as RQ. unfold asm_rawNeg. cbn [app]. apply w_xor. intros f0. apply ww_app.
  eapply ww_mono; [|apply nz_loop; [intros r Hr; cbn [setf setr regs]; apply rupd_neq, Hr|reflexivity|cbn [setf setr regs]; apply rupd_eq]].
  intros [m1 sk] [K1 K2 K3 K4]. cbn [fst snd] in *. destruct K4 as [[-> K4]|[-> K4]].
  - apply ww_app. eapply ww_mono; [|apply zr_loop; assumption]. intros s Z. destruct (Zr_Final s Z) as [F1 F2 F3 F4 F5]. destruct s as [m2 sk]. cbn [fst snd] in *. subst sk. cbn [app]. eapply ww_cons; [reflexivity|].
    rewrite app_comm_cons. apply ww_app, ww_skip.
    + cbn [nolab]. apply nolab_flat. reflexivity.
    + apply w_lab_hit, ww_nil. assert (E0 : vals pa n = 0) by (apply es_zero; exact K4). rewrite E0. constructor; cbn [fst snd]; [reflexivity|exact F2|exact F3|exact F4|]. rewrite F5. reflexivity.
  - apply ww_app. apply ww_skip.
    { rewrite flat_map_single. apply nolab_flat. reflexivity. }
    cbn [app]. eapply ww_cons; [reflexivity|]. apply w_lab_hit. apply ww_app.
    assert (W1 : words m1). { split; [intros r; destruct (reg_dec r RAX) as [->|N]; [rewrite K3; pose proof B_pos; lia|rewrite K1 by exact N; apply Hm]|rewrite K2; apply Hm]. }
    eapply ww_mono; [|apply (chain lay n m1 pd W1 ltac:(rewrite K1 by discriminate; exact Epd) Hpd q8 (at8 RSI) (fun j => lay Sq + 8 * Z.of_nat j) (fun j => pa + 8 * Z.of_nat j)) with (sub := true)].
    + intros [m2 sk] [C1 C2 C3 C4 C5 C6]. cbn [fst snd] in *. subst sk. apply w_lab, ww_nil. rewrite K2 in C5. change (out m2 n - cin n m2 * B ^ Z.of_nat n = q - vals pa n) in C5. pose proof (out_range m2 C4) as R2. pose proof (cin_range n m2).
      constructor; cbn [fst snd]; [reflexivity|intros r Hr; rewrite C2 by exact Hr; apply K1, Hr|intros x Hx; rewrite C3 by exact Hx; rewrite K2; reflexivity|exact C4|].
      assert (D : cin n m2 = 0 \/ cin n m2 = 1) by lia. assert (Eo : out m2 n = q - vals pa n) by (destruct D as [D|D]; rewrite D in C5; lia). rewrite Eo, <- (Z.mod_add _ 1), Z.mod_small by lia. lia.
    + intros i m' Hi G. apply loc_q8 with n; [exact Hq|exact Hi].
    + intros i m' Hi G. apply loc_at8 with n; [rewrite G, K1 by discriminate; exact Ea|exact Pa|exact Hi].
    + intros i j Hij. apply sep_ne'; [exact Dq|lia|lia].
    + intros i j Hij. apply sep_ne; assumption.
Qed.
End Neg.
End WithQ.
(** *** rawZero, rawCopy *)
Lemma rawZero_ww : ww lay (asm_rawZero n) (Final 0) (m, None).
Proof.
  unfold asm_rawZero. apply w_xor. intros f. eapply ww_mono; [apply Zr_Final|]. apply zr_loop; [intros r Hr; cbn [setf setr regs]; apply rupd_neq, Hr|reflexivity|cbn [setf setr regs]; apply rupd_eq].
Qed.
Section Copy.
Variable pa : Z.
Hypothesis Ea : regs m RSI = pa.
Hypothesis Pa : ptr pa n.
Hypothesis Sa : same_or_apart n pa pd.
Record Cp (i : nat) (s : st) : Prop := { cp_sk : snd s = None; cp_agree : agree (fst s); cp_un : untouched i (fst s); cp_v : forall j, (j < i)%nat -> mem (fst s) (dst j) = mem m (pa + 8 * Z.of_nat j) }.
Lemma rawCopy_ww : ww lay (asm_rawCopy n) (Final (vals pa n)) (m, None).
Proof.
  unfold asm_rawCopy. eapply ww_mono; [|apply (ww_loop lay Cp _ n 0)].
  - intros s [K1 K2 K3 K4]. constructor; [exact K1|exact K2|exact K3| |].
    + intros j Hj. rewrite K4 by exact Hj. apply Hm.
    + apply es_ext. intros j Hj. apply K4, Hj.
  - intros i [m' sk] Hi [K1 K2 K3 K4]. cbn [fst snd] in *. subst sk. eapply w_ld; [apply loc_at8 with n; [rewrite K2 by discriminate; exact Ea|exact Pa|lia]|].
    rewrite K3 by (intros j Hj; apply sep_ne; [exact Sa|lia]). set (m1 := setr _ _ _). assert (G1 : agree m1) by apply agree_rax, K2.
    eapply w_st; [eapply loc_dst with (n := n); eauto; lia|]. apply ww_nil. constructor; cbn [fst snd]; [reflexivity|exact G1|apply untouched_st; exact K3|].
    intros j Hj. cbn [setm mem]. destruct (Nat.eq_dec j i) as [->|N]; [rewrite mupd_eq; unfold m1; cbn [setr regs]; apply rupd_eq|]. rewrite mupd_neq by lia. apply K4. lia.
  - constructor; cbn [fst snd]; [reflexivity|intros r _; reflexivity|intros x _; reflexivity|intros; lia].
Qed.
End Copy.
End R.

(** ** routines which write no memory, and rawSwap *)
Section S.
Variable lay : sym -> Z.
Variable n : nat.
Variable m : mach.
Hypothesis Hm : words m.
Variables pd pa : Z.
Hypothesis Ed : regs m RDI = pd.
Hypothesis Pd : ptr pd n.
Notation agree := (agree m).
Notation val p := (es (fun j => mem m (p + 8 * Z.of_nat j)) n).
Record Rt (v : Z) (s : st) : Prop := { rt_sk : snd s = None; rt_agree : agree (fst s); rt_mem : mem (fst s) = mem m; rt_v : regs (fst s) RAX = v }.
Lemma call_rt code v : ww lay code (Rt v) (m, None) -> exists m', call lay code m = Some m' /\ mem m' = mem m /\ regs m' RAX = v /\ (forall r, r <> RAX -> r <> RSP -> regs m' r = regs m r) /\ regs m' RSP = (regs m RSP + 8) mod B.
Proof.
  intros ([m' sk] & E & [K1 K2 K3 K4]). cbn [fst snd] in *. subst sk. exists (setr m' RSP ((regs m RSP + 8) mod B)). split; [|split; [exact K3|split; [|split]]].
  - unfold call. rewrite E, K2, K3, !Z.eqb_refl by discriminate. reflexivity.
  - cbn [setr regs]. rewrite rupd_neq by discriminate. exact K4.
  - intros r H1 H2. cbn [setr regs]. rewrite rupd_neq by exact H2. apply K2, H1.
  - cbn [setr regs]. apply rupd_eq.
Qed.
Record Dif (g : nat -> Z) (i : nat) (s : st) : Prop := { df_agree : agree (fst s); df_mem : mem (fst s) = mem m;
  df_or : (snd s = None /\ forall j, (j < i)%nat -> mem m (pd + 8 * Z.of_nat j) = g j) \/ (snd s = Some l_ret0 /\ exists j, (j < n)%nat /\ mem m (pd + 8 * Z.of_nat j) <> g j) }.
Lemma es_inj f g k : (forall j, (j < k)%nat -> 0 <= f j < B) -> (forall j, (j < k)%nat -> 0 <= g j < B) -> es f k = es g k -> forall j, (j < k)%nat -> f j = g j.
Proof.
  induction k as [|k IH]; intros Hf Hg E j Hj; [lia|]. cbn [es] in E. pose proof (es_bound f k (fun j Hj => Hf j ltac:(lia))). pose proof (es_bound g k (fun j Hj => Hg j ltac:(lia))).
  assert (f k = g k) by nia. assert (es f k = es g k) by nia. destruct (Nat.eq_dec j k) as [->|N]; [assumption|]. apply IH; [intros; apply Hf; lia|intros; apply Hg; lia|assumption|lia].
Qed.
Lemma finish_ret g (Hg : forall j, (j < n)%nat -> 0 <= g j < B) s : Dif g n s ->
  ww lay [I Imov [OReg RAX; OImm 1]; Jmp l_done; Lab l_ret0; I Ixor [OReg RAX; OReg RAX]; Lab l_done] (Rt (if val pd =? es g n then 1 else 0)) s.
Proof.
  intros [K1 K2 K3]. destruct s as [m' sk]. cbn [fst snd] in *. destruct K3 as [[-> K3]|[-> (j & Hj & K3)]].
  - assert (E : val pd = es g n) by (apply es_ext; exact K3). rewrite E, Z.eqb_refl. apply w_imm. eapply ww_cons; [reflexivity|]. eexists. split; [reflexivity|]. constructor; cbn [fst snd]; [reflexivity|apply agree_rax, K1|exact K2|cbn [setr regs]; apply rupd_eq].
  - destruct (Z.eqb_spec (val pd) (es g n)) as [E|E].
    { exfalso. apply K3. apply (es_inj (fun j => mem m (pd + 8 * Z.of_nat j)) g n); [intros; apply Hm|exact Hg|exact E|exact Hj]. }
    eapply ww_cons; [reflexivity|]. eapply ww_cons; [reflexivity|]. apply w_lab_hit, w_xor. intros f. apply w_lab, ww_nil. constructor; cbn [fst snd]; [reflexivity|intros r Hr; cbn [setf setr regs]; rewrite rupd_neq by exact Hr; apply K1, Hr|exact K2|cbn [setf setr regs]; apply rupd_eq].
Qed.
Lemma rawIsEq_ww : regs m RSI = pa -> ptr pa n -> ww lay (asm_rawIsEq n) (Rt (if val pd =? val pa then 1 else 0)) (m, None).
Proof.
  intros Ea Pa. unfold asm_rawIsEq. apply ww_app. eapply ww_mono; [|apply (ww_loop lay (Dif (fun j => mem m (pa + 8 * Z.of_nat j))) _ n 0)].
  - intros s D. apply finish_ret; [intros; apply Hm|exact D].
  - intros i [m' sk] Hi [K1 K2 K3]. cbn [fst snd] in *. destruct K3 as [[-> K3]|[-> K3]]; [|apply ww_skip; [reflexivity|]; constructor; cbn [fst snd]; auto].
    eapply w_ld; [apply loc_at8 with n; [rewrite K1 by discriminate; exact Ea|exact Pa|lia]|]. rewrite K2. set (m1 := setr _ _ _). assert (G1 : agree m1) by apply agree_rax, K1. assert (M1 : mem m1 = mem m) by exact K2.
    assert (A1 : regs m1 RAX = mem m (pa + 8 * Z.of_nat i)) by (unfold m1; cbn [setr regs]; apply rupd_eq).
    apply w_cmpm with (pd + 8 * Z.of_nat i); [apply loc_at8 with n; [rewrite G1 by discriminate; exact Ed|exact Pd|lia]|rewrite A1; apply Hm|rewrite M1; apply Hm|]. rewrite A1, M1. intros f Hf. apply w_j. cbn [holds_cond setf fl]. rewrite Hf. apply ww_nil.
    destruct (Z.eqb_spec (mem m (pd + 8 * Z.of_nat i)) (mem m (pa + 8 * Z.of_nat i))) as [E|E]; cbn [negb].
    + constructor; cbn [fst snd]; [exact G1|exact M1|]. left. split; [reflexivity|]. intros j Hj. destruct (Nat.eq_dec j i) as [->|N]; [exact E|]. apply K3. lia.
    + constructor; cbn [fst snd]; [exact G1|exact M1|]. right. split; [reflexivity|]. exists i. split; [lia|exact E].
  - constructor; cbn [fst snd]; [intros r _; reflexivity|reflexivity|]. left. split; [reflexivity|]. intros; lia.
Qed.
Lemma rawIsZero_ww : ww lay (asm_rawIsZero n) (Rt (if val pd =? 0 then 1 else 0)) (m, None).
Proof.
  unfold asm_rawIsZero. apply ww_app. eapply ww_mono; [|apply (ww_loop lay (Dif (fun _ => 0)) _ n 0)].
  - intros s D. replace (if val pd =? 0 then 1 else 0) with (if val pd =? es (fun _ => 0) n then 1 else 0) by (rewrite (es_zero (fun _ => 0) n (fun _ _ => eq_refl)); reflexivity). apply finish_ret; [intros; pose proof B_pos; lia|exact D].
  - intros i [m' sk] Hi [K1 K2 K3]. cbn [fst snd] in *. destruct K3 as [[-> K3]|[-> K3]]; [|apply ww_skip; [reflexivity|]; constructor; cbn [fst snd]; auto].
    apply w_cmp0 with (pd + 8 * Z.of_nat i); [apply loc_at8 with n; [rewrite K1 by discriminate; exact Ed|exact Pd|lia]|rewrite K2; apply Hm|]. rewrite K2. intros f Hf. apply w_j. cbn [holds_cond setf fl]. rewrite Hf. apply ww_nil.
    destruct (Z.eqb_spec (mem m (pd + 8 * Z.of_nat i)) 0) as [E|E]; cbn [negb].
    + constructor; cbn [fst snd]; [exact K1|exact K2|]. left. split; [reflexivity|]. intros j Hj. destruct (Nat.eq_dec j i) as [->|N]; [exact E|]. apply K3. lia.
    + constructor; cbn [fst snd]; [exact K1|exact K2|]. right. split; [reflexivity|]. exists i. split; [lia|exact E].
  - constructor; cbn [fst snd]; [intros r _; reflexivity|reflexivity|]. left. split; [reflexivity|]. intros; lia.
Qed.
(** rawSwap stores rbx instead of rcx *)
Hypothesis Ea : regs m RSI = pa.
Hypothesis Pa : ptr pa n.
Hypothesis Ap : apart n pd pa.
Hypothesis Hret : forall j, (j < n)%nat -> regs m RSP <> pd + 8 * Z.of_nat j /\ regs m RSP <> pa + 8 * Z.of_nat j.
Record Sw (i : nat) (s : st) : Prop := { sw_sk : snd s = None; sw_agree : forall r, r <> RAX -> r <> RCX -> regs (fst s) r = regs m r;
  sw_d : forall j, (j < i)%nat -> mem (fst s) (pd + 8 * Z.of_nat j) = mem m (pa + 8 * Z.of_nat j);
  sw_a : forall j, (j < i)%nat -> mem (fst s) (pa + 8 * Z.of_nat j) = regs m RBX;
  sw_o : forall x, (forall j, (j < i)%nat -> x <> pd + 8 * Z.of_nat j /\ x <> pa + 8 * Z.of_nat j) -> mem (fst s) x = mem m x }.
Lemma rawSwap_ww : ww lay (asm_rawSwap n) (Sw n) (m, None).
Proof.
  unfold asm_rawSwap. eapply ww_mono; [|apply (ww_loop lay Sw _ n 0)]; [auto| |].
  - intros i [m' sk] Hi [K1 K2 K3 K4 K5]. cbn [fst snd] in *. subst sk.
    eapply w_ld; [apply loc_at8 with n; [rewrite K2 by discriminate; exact Ea|exact Pa|lia]|]. rewrite K5 by (intros j Hj; destruct Ap; lia). set (v := mem m (pa + 8 * Z.of_nat i)).
    eapply w_ld; [apply loc_at8 with n; [cbn [setr regs]; rewrite rupd_neq, K2 by discriminate; exact Ed|exact Pd|lia]|].
    eapply w_st; [apply loc_at8 with n; [cbn [setr regs]; rewrite !rupd_neq, K2 by discriminate; exact Ed|exact Pd|lia]|].
    eapply w_st; [apply loc_at8 with n; [cbn [setm setr regs]; rewrite !rupd_neq, K2 by discriminate; exact Ea|exact Pa|lia]|].
    apply ww_nil. constructor; cbn [fst snd setm setr regs mem].
    + reflexivity.
    + intros r H1 H2. rewrite !rupd_neq by assumption. apply K2; assumption.
    + intros j Hj. rewrite mupd_neq by (destruct Ap; lia). destruct (Nat.eq_dec j i) as [->|N]; [rewrite mupd_eq, rupd_neq, rupd_eq by discriminate; reflexivity|]. rewrite mupd_neq by lia. apply K3. lia.
    + intros j Hj. destruct (Nat.eq_dec j i) as [->|N]; [rewrite mupd_eq, !rupd_neq by discriminate; apply K2; discriminate|]. rewrite !mupd_neq by (destruct Ap; lia). apply K4. lia.
    + intros x Hx. rewrite !mupd_neq by (destruct (Hx i ltac:(lia)); assumption). apply K5. intros j Hj. apply Hx. lia.
  - constructor; cbn [fst snd]; [reflexivity|reflexivity|intros; lia|intros; lia|reflexivity].
Qed.
Lemma rawSwap_call : exists m', call lay (asm_rawSwap n) m = Some m' /\
  (forall j, (j < n)%nat -> mem m' (pd + 8 * Z.of_nat j) = mem m (pa + 8 * Z.of_nat j)) /\
  (forall j, (j < n)%nat -> mem m' (pa + 8 * Z.of_nat j) = regs m RBX) /\
  (forall x, (forall j, (j < n)%nat -> x <> pd + 8 * Z.of_nat j /\ x <> pa + 8 * Z.of_nat j) -> mem m' x = mem m x) /\
  (forall r, r <> RAX -> r <> RCX -> r <> RSP -> regs m' r = regs m r) /\ regs m' RSP = (regs m RSP + 8) mod B.
Proof.
  destruct rawSwap_ww as ([m' sk] & E & [K1 K2 K3 K4 K5]). cbn [fst snd] in *. subst sk. exists (setr m' RSP ((regs m RSP + 8) mod B)). split; [|split; [exact K3|split; [exact K4|split; [exact K5|split]]]].
  - unfold call. rewrite E, K2 by discriminate. rewrite K5 by exact Hret. rewrite !Z.eqb_refl. reflexivity.
  - intros r H1 H2 H3. cbn [setr regs]. rewrite rupd_neq by exact H3. apply K2; assumption.
  - cbn [setr regs]. apply rupd_eq.
Qed.
End S.
