(** The limb loops of the bit operations: the final subtraction of q and the loops
    that store one limb of the result after the other. *)
From Coq Require Import ZArith List Bool Arith Lia.
From Verif Require Import Limbs LimbsFacts X86 X86Sim X86Mont X86Call X86Raw X86RawFacts X86RawFacts2 X86RawFacts3 X86T X86TWords X86TFacts X86THelp X86THelp2 X86TInv X86TLoop.
Import ListNotations.
Open Scope Z_scope.

(** *** binOpSubQIfBigger *)
Section Tail.
Variable lay : sym -> Z.
Variable n : nat.
Variable m : mach.
Variable o : nat.
Variable pd : Z.
Hypothesis Hm : words m.
Hypothesis Ep : regs m RDI = pd - 8 * Z.of_nat o.
Hypothesis Hpd : X86RawFacts.ptr pd n.
Hypothesis Hn : (1 <= n)%nat.
Hypothesis Hq : X86RawFacts.ptr (lay Sq) n.
Hypothesis Dq : apart n (lay Sq) pd.
Notation dst j := (pd + 8 * Z.of_nat j).
Notation out := (out pd).
Notation agree := (agree m).
Notation untouched := (untouched m pd).
Notation q := (vals m (lay Sq) n).
Notation qj j := (mem m (lay Sq + 8 * Z.of_nat j)).
Lemma locd m' i : agree m' -> (i < n)%nat -> loc lay m' (at8 RDI (i + o)) (dst i).
Proof. intros H Hi. destruct Hpd as (H1 & H2 & H3). unfold loc, at8, addr. rewrite H, Ep by discriminate. replace (pd - 8 * Z.of_nat o + Z.of_nat (i + o) * 8) with (dst i) by lia. split; [apply Z.mod_small; lia|apply al8, H2]. Qed.
Record Acc8 (i : nat) (s : X86RawFacts.st) : Prop := {
  a8_sk : snd s = None; a8_agree : agree (fst s); a8_un : untouched n (fst s);
  a8_rest : forall j, (i <= j < n)%nat -> mem (fst s) (dst j) = mem m (dst j);
  a8_rng : forall j, (j < n)%nat -> 0 <= mem (fst s) (dst j) < B;
  a8_val : out (fst s) i - cin i (fst s) * B ^ Z.of_nat i = out m i - es (fun j => qj j) i }.
Definition subq8 : list instr := flat_map (fun i => [I Imov [OReg RAX; q8 i]; I (subOp i) [at8 RDI (i + o); OReg RAX]]) (seq 0 n).
Lemma acc8 m0 : agree m0 -> mem m0 = mem m -> ww lay subq8 (Acc8 n) (m0, None).
Proof.
  intros G U. eapply ww_mono; [|apply (ww_loop lay Acc8 _ n 0)]; [auto| |].
  - intros i [m' sk] Hi [K1 K2 K3 K4 K5 K6]. cbn [fst snd] in *. subst sk.
    assert (E1 : mem m' (lay Sq + 8 * Z.of_nat i) = qj i) by (apply K3; intros j Hj; unfold apart in Dq; lia).
    pose proof (proj2 Hm (lay Sq + 8 * Z.of_nat i)) as R1. pose proof (proj2 Hm (dst i)) as R2. pose proof (cin_range i m') as Rc. assert (E0 : mem m' (dst i) = mem m (dst i)) by (apply K4; lia).
    eapply w_ld; [apply loc_q8 with n; [exact Hq|lia]|]. rewrite E1. set (m1 := setr m' RAX _). assert (G1 : agree m1) by apply agree_rax, K2.
    assert (Er : regs m1 RAX = qj i) by (unfold m1; cbn [setr regs]; apply rupd_eq).
    assert (Em : mem m1 (dst i) = mem m (dst i)) by exact E0. assert (Ec : cin i m1 = cin i m') by reflexivity.
    apply w_subm with (dst i); [apply locd; [exact G1|lia]|]. intros f Hf. rewrite Er, Em, Ec in *. set (w := mem m (dst i) - _ - cin i m') in *. apply ww_nil. constructor; cbn [fst snd].
    + reflexivity.
    + exact G1.
    + intros x Hx. cbn [setf setm mem]. rewrite mupd_neq by (apply Hx; lia). apply K3, Hx.
    + intros j Hj. cbn [setf setm mem]. rewrite mupd_neq by lia. apply K4. lia.
    + intros j Hj. cbn [setf setm mem]. unfold mupd. destruct (Z.eqb_spec (dst j) (dst i)); [apply Z.mod_pos_bound, B_pos|apply K5, Hj].
    + rewrite cin_S. cbn [setf fl]. unfold X86RawFacts2.out in *. cbn [es]. cbn [setf setm mem]. rewrite mupd_eq. rewrite (es_ext _ (fun j => mem m' (dst j)) i) by (intros j Hj; apply mupd_neq; lia).
      rewrite Hf, b2z_lt by (unfold w; lia). rewrite Bpow_S. pose proof (b2z_range (w <? 0)). unfold w in *. nia.
  - constructor; cbn [fst snd]; [reflexivity|exact G|intros x _; rewrite U; reflexivity|intros; rewrite U; reflexivity|intros; rewrite U; apply Hm|]. unfold X86RawFacts2.out. cbn. reflexivity.
Qed.
Record Cmp8 (i : nat) (s : X86RawFacts.st) : Prop := {
  c8_agree : agree (fst s); c8_mem : mem (fst s) = mem m;
  c8_or : (snd s = None /\ (forall j, (n - i <= j < n)%nat -> mem m (dst j) = qj j)) \/ (snd s = Some l_done /\ out m n < q) \/ (snd s = Some l_sq /\ q <= out m n) }.
Definition cmp8 : list instr := flat_map (fun i => [I Imov [OReg RAX; at8 RDI (n - i - 1 + o)]; I Icmp [OReg RAX; q8 (n - i - 1)]; J Cc l_done; J Cnz l_sq]) (seq 0 n).
Lemma cmp8_loop : ww lay cmp8 (Cmp8 n) (m, None).
Proof.
  eapply ww_mono; [|apply (ww_loop lay Cmp8 _ n 0)]; [auto| |].
  - intros i [m' sk] Hi [K1 K2 K4]. cbn [fst snd] in *. destruct K4 as [[Es K4]|K4].
    2:{ assert (exists l, sk = Some l /\ (l = l_done \/ l = l_sq)) as (l & -> & Hl) by (destruct K4 as [[E _]|[E _]]; eauto).
        apply ww_skip; [destruct Hl; subst l; reflexivity|]. constructor; cbn [fst snd]; [exact K1|exact K2|right; exact K4]. }
    subst sk. set (k := (n - i - 1)%nat). assert (Hk : (k < n)%nat) by (unfold k; lia).
    eapply w_ld; [apply locd; [exact K1|exact Hk]|]. rewrite K2. set (m2 := setr m' RAX _). assert (G2 : agree m2) by apply agree_rax, K1. assert (A2 : regs m2 RAX = mem m (dst k)) by (unfold m2; cbn [setr regs]; apply rupd_eq).
    assert (M2 : mem m2 = mem m) by exact K2. apply w_cmp with (lay Sq + 8 * Z.of_nat k); [apply loc_q8 with n; [exact Hq|exact Hk]|rewrite A2; apply Hm|rewrite M2; apply Hm|]. rewrite A2, M2. intros f Hcf Hzf.
    set (m3 := setf m2 f). apply w_j. cbn [holds_cond]. change (fl m3) with f. rewrite Hcf. destruct (Z.ltb_spec (mem m (dst k)) (qj k)) as [Lt|Ge].
    + apply ww_skip; [reflexivity|]. constructor; cbn [fst snd]; [exact G2|exact M2|]. right. left. split; [reflexivity|]. apply es_top with k; [exact Hk|intros; apply Hm|intros; apply Hm|intros j Hj; apply K4; unfold k in *; lia|exact Lt].
    + apply w_j. cbn [holds_cond]. change (fl m3) with f. rewrite Hzf. apply ww_nil. destruct (Z.eqb_spec (mem m (dst k)) (qj k)) as [Ee|Ne]; cbn [negb].
      * constructor; cbn [fst snd]; [exact G2|exact M2|]. left. split; [reflexivity|]. intros j Hj. destruct (Nat.eq_dec j k) as [->|N]; [exact Ee|]. apply K4. unfold k in *. lia.
      * constructor; cbn [fst snd]; [exact G2|exact M2|]. right. right. split; [reflexivity|]. apply Z.lt_le_incl. apply es_top with k; [exact Hk|intros; apply Hm|intros; apply Hm|intros j Hj; symmetry; apply K4; unfold k in *; lia|lia].
  - constructor; cbn [fst snd]; [intros r _; reflexivity|reflexivity|]. left. split; [reflexivity|]. intros; lia.
Qed.
Lemma subq8_nolab l : nolab l subq8 = true.
Proof. apply nolab_flat. intros i. reflexivity. Qed.
Lemma tail8 : out m n < 2 * q -> ww lay (binSubQ n o) (Final n m pd (out m n mod q)) (m, None).
Proof.
  intros HR. assert (R1 : 0 <= out m n < B ^ Z.of_nat n) by (apply es_bound; intros j _; apply Hm). assert (RQ : 0 <= q < B ^ Z.of_nat n) by (apply es_bound; intros j _; apply Hm). pose proof (Bpow_pos n).
  assert (SUB : forall m2, agree m2 -> mem m2 = mem m -> q <= out m n -> ww lay (subq8 ++ [Lab l_done]) (Final n m pd (out m n mod q)) (m2, None)).
  { intros m2 G2 M2 Hge. apply ww_app. eapply ww_mono; [|apply (acc8 m2 G2 M2)].
    intros [m3 sk] [A1 A2 A3 A4 A5 A6]. cbn [fst snd] in *. subst sk. apply w_lab, ww_nil. change (es (fun j => qj j) n) with q in A6.
    constructor; cbn [fst snd]; [reflexivity|exact A2|exact A3|exact A5|]. assert (R3 : 0 <= out m3 n < B ^ Z.of_nat n) by (apply es_bound; exact A5).
    pose proof (cin_range n m3). assert (Eo : out m3 n = out m n - q) by (assert (D : cin n m3 = 0 \/ cin n m3 = 1) by lia; destruct D as [D|D]; rewrite D in A6; lia). rewrite <- (Z.mod_add _ (-1)), Z.mod_small by lia. lia. }
  unfold binSubQ. fold cmp8 subq8. apply ww_app. eapply ww_mono; [|apply cmp8_loop].
  intros [m2 sk] [C1 C2 C4]. cbn [fst snd] in *. destruct C4 as [[-> Ce]|[[-> Cl]|[-> Cg]]].
  - cbn [app]. apply w_lab. apply SUB; [exact C1|exact C2|]. assert (out m n = q) by (apply es_ext; intros j Hj; apply Ce; lia). lia.
  - cbn [app]. change (Lab l_sq :: subq8 ++ [Lab l_done]) with ((Lab l_sq :: subq8) ++ [Lab l_done]). apply ww_app, ww_skip; [cbn [nolab]; rewrite subq8_nolab; reflexivity|]. apply w_lab_hit, ww_nil.
    assert (E2 : out m2 n = out m n) by (unfold X86RawFacts2.out; rewrite C2; reflexivity).
    constructor; cbn [fst snd]; [reflexivity|exact C1|intros x Hx; rewrite C2; reflexivity|rewrite C2; intros; apply Hm|]. rewrite Z.mod_small by lia. lia.
  - cbn [app]. apply w_lab_hit. apply SUB; [exact C1|exact C2|lia].
Qed.
End Tail.
Lemma binSubQ_ok n o : Forall instr_ok (binSubQ n o). Proof. unfold binSubQ. raw_ok. Qed.
Lemma binSubQ_nolab n o l : l <> l_sq -> l <> l_done -> nolab l (binSubQ n o) = true.
Proof.
  intros H1 H2. unfold binSubQ. rewrite !nolab_app. rewrite !nolab_flat by reflexivity. cbn [nolab andb]. apply Nat.eqb_neq in H1, H2. rewrite H1, H2. reflexivity.
Qed.

(** *** storing limb after limb *)
Section Loop.
Variable lay : sym -> Z.
Variable ra : Z.
Variable n : nat.
Variable m : mach.
Variable pd : Z.
Notation dst j := (pd + 8 * Z.of_nat j).
Variables (f : nat -> list tinstr) (g : nat -> Z).
(** the limbs below [i] are stored *)
Definition upto (i : nat) (m' : mach) : Prop := words m' /\ agree m m' /\ untouched m pd i m' /\ (forall j, (j < i)%nat -> mem m' (dst j) = g j).
Definition stores (i : nat) : Prop := forall m' rest Q, upto i m' ->
  (forall m2, words m2 -> agree m m2 -> mem m2 = mupd (mem m') (dst i) (g i) -> tw lay ra rest Q (m2, None)) -> tw lay ra (f i ++ rest) Q (m', None).
Lemma upto_S i m' m2 : upto i m' -> words m2 -> agree m m2 -> mem m2 = mupd (mem m') (dst i) (g i) -> upto (S i) m2.
Proof.
  intros (W & A & U & G) W2 A2 M2. split; [exact W2|]. split; [exact A2|]. split.
  - intros x Hx. rewrite M2, mupd_neq by (apply Hx; lia). apply U. intros j Hj. apply Hx. lia.
  - intros j Hj. rewrite M2. destruct (Nat.eq_dec j i) as [->|N]; [apply mupd_eq|]. rewrite mupd_neq by lia. apply G. lia.
Qed.
Lemma store_loop k : forall o m' rest Q, (forall i, (o <= i < o + k)%nat -> stores i) -> upto o m' ->
  (forall m2, upto (o + k) m2 -> tw lay ra rest Q (m2, None)) -> tw lay ra (flat_map f (seq o k) ++ rest) Q (m', None).
Proof.
  induction k as [|k IH]; intros o m' rest Q H U K; cbn [seq flat_map app].
  - apply K. rewrite Nat.add_0_r. exact U.
  - rewrite <- app_assoc. apply H; [lia|exact U|]. intros m2 W2 A2 M2. apply IH; [intros i Hi; apply H; lia|exact (upto_S _ _ _ U W2 A2 M2)|]. intros m3 U3. apply K. replace (o + S k)%nat with (S o + k)%nat by lia. exact U3.
Qed.
End Loop.
Lemma flat_ext_in {A} (f g : nat -> list A) l : (forall i, In i l -> f i = g i) -> flat_map f l = flat_map g l.
Proof. intros H. rewrite !flat_map_concat_map. f_equal. apply map_ext_in, H. Qed.

(** *** the values *)
Lemma tb_split k a c i : 0 <= k -> 0 <= i -> 0 <= a < 2 ^ k -> Z.testbit (a + 2 ^ k * c) i = if i <? k then Z.testbit a i else Z.testbit c (i - k).
Proof.
  intros Hk Hi Ha. rewrite Z.mul_comm. destruct (Z.ltb_spec i k).
  - rewrite <- (Z.mod_pow2_bits_low (a + c * 2 ^ k) k i) by lia. rewrite Z.mod_add, Z.mod_small by lia. reflexivity.
  - replace i with (i - k + k) at 1 by lia. rewrite <- Z.div_pow2_bits by lia. rewrite Z.div_add, Z.div_small by lia. reflexivity.
Qed.
Lemma bit_op_split o k a b c d : 0 <= k -> 0 <= a < 2 ^ k -> 0 <= b < 2 ^ k -> bit_op o (a + 2 ^ k * c) (b + 2 ^ k * d) = bit_op o a b + 2 ^ k * bit_op o c d.
Proof.
  intros Hk Ha Hb. pose proof (bit_op_range k o a b Hk Ha Hb) as Hr. apply Z.bits_inj'. intros i Hi. rewrite (tb_split k (bit_op o a b)) by assumption.
  destruct o; cbn [bit_op] in *; rewrite ?Z.land_spec, ?Z.lor_spec, ?Z.lxor_spec, !tb_split by assumption; destruct (i <? k); reflexivity.
Qed.
Lemma es_bit o x y k : (forall j, (j < k)%nat -> 0 <= x j < B) -> (forall j, (j < k)%nat -> 0 <= y j < B) -> es (fun j => bit_op o (x j) (y j)) k = bit_op o (es x k) (es y k).
Proof.
  induction k as [|k IH]; intros Hx Hy; [destruct o; reflexivity|]. cbn [es]. rewrite IH by (intros; first [apply Hx|apply Hy]; lia). pose proof (es_bound x k ltac:(intros; apply Hx; lia)) as Rx. pose proof (es_bound y k ltac:(intros; apply Hy; lia)) as Ry.
  assert (E : B ^ Z.of_nat k = 2 ^ (64 * Z.of_nat k)) by (rewrite B_eq, <- Z.pow_mul_r by lia; reflexivity). rewrite E in *. rewrite !(Z.mul_comm _ (2 ^ _)). symmetry. apply bit_op_split; [lia|assumption|assumption].
Qed.
Lemma es_not x k : es (fun j => B - 1 - x j) k = B ^ Z.of_nat k - 1 - es x k.
Proof. induction k as [|k IH]; [reflexivity|]. cbn [es]. rewrite IH, Bpow_S. ring. Qed.
(** the mask on the last limb *)
Lemma es_mask x n b : (1 <= n)%nat -> 64 * (Z.of_nat n - 1) < b <= 64 * Z.of_nat n -> (forall j, (j < n)%nat -> 0 <= x j < B) ->
  es (fun j => if Nat.eqb j (n - 1) then Z.land (x j) (2 ^ (b - 64 * (Z.of_nat n - 1)) - 1) else x j) n = es x n mod 2 ^ b.
Proof.
  intros Hn Hb Hx. destruct n as [|k]; [lia|]. replace (S k - 1)%nat with k by lia. cbn [es]. rewrite Nat.eqb_refl. rewrite (es_ext _ x k) by (intros j Hj; destruct (Nat.eqb_spec j k); [lia|reflexivity]).
  set (t := b - 64 * (Z.of_nat (S k) - 1)). rewrite Z.sub_1_r, <- Z.ones_equiv, Z.land_ones by (unfold t; lia). pose proof (es_bound x k ltac:(intros; apply Hx; lia)) as Rx. pose proof (Bpow_pos k).
  replace (2 ^ b) with (B ^ Z.of_nat k * 2 ^ t) by (rewrite B_eq, <- Z.pow_mul_r, <- Z.pow_add_r by (unfold t; lia); f_equal; unfold t; lia).
  assert (0 < 2 ^ t) by (apply Z.pow_pos_nonneg; unfold t; lia). rewrite Z.rem_mul_r by lia. rewrite Z.mod_add, (Z.mod_small (es x k)), Z.div_add, (Z.div_small (es x k)), Z.add_0_l by lia. ring.
Qed.
