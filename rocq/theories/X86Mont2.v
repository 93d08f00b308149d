(** The four templates on virtual registers. *)
From Coq Require Import ZArith List Bool Arith Lia.
From Verif Require Import Limbs LimbsFacts X86 X86Gen X86Sim X86Mont.
Import ListNotations.
Open Scope Z_scope.

(** [l] is stored at [p], 64-bit aligned, at allowed addresses *)
Definition arr (okaddr : Z -> bool) (p : Z) (l : list Z) (m : mach) : Prop :=
  0 <= p /\ p mod 8 = 0 /\ p + 8 * Z.of_nat (length l) <= B /\
  forall j, (j < length l)%nat -> okaddr (p + 8 * Z.of_nat j) = true /\ mem m (p + 8 * Z.of_nat j) = nth j l 0.
(** after the routine: [l] at [p], other words as before *)
Definition wrote (p : Z) (l : list Z) (m m' : mach) : Prop :=
  (forall j, (j < length l)%nat -> mem m' (p + 8 * Z.of_nat j) = nth j l 0) /\
  (forall x, (forall j, (j < length l)%nat -> x <> p + 8 * Z.of_nat j) -> mem m' x = mem m x).

Section Mont2.
Variable lay : sym -> Z.
Variable okaddr : Z -> bool.
Variable n : nat.
Variable opt : bool.
Hypothesis Hn : (1 <= n)%nat.
Variable q np : Z.
Variable ql : list Z.
Hypothesis Hql : limbs_ok n ql.
Hypothesis Hqe : eval ql = q.
Hypothesis Hq1 : 1 < q.
Hypothesis Hqn : q < B ^ Z.of_nat n.
Hypothesis Hopt : opt = true -> 2 * q < B ^ Z.of_nat n.
Hypothesis Hnp : 0 <= np < B.
Hypothesis Hnq : (q * np + 1) mod B = 0.
Variable m : mach.
Variable v : nat -> Z.
Hypothesis Hv : vok v.
Hypothesis Hregs : forall r, 0 <= regs m r < B.
Hypothesis Hmq : arr okaddr (lay Sq) ql m.
Hypothesis Hmnp : arr okaddr (lay Snp) [np] m.
Variable p : Z.
Hypothesis Hpd : regs m RDI = p.
Hypothesis Hp0 : 0 <= p.
Hypothesis Hp8 : p mod 8 = 0.
Hypothesis HpB : p + 8 * Z.of_nat n <= B.
Hypothesis Hpok : forall j, (j < n)%nat -> okaddr (p + 8 * Z.of_nat j) = true.

Definition m0 : mach := setf (setr m RCX (regs m RDX)) {| cf := false; ovf := false; zf := true |}.
Notation wp' := (wp lay okaddr).
Lemma lenq : length ql = n. Proof. apply Hql. Qed.
Lemma arr_array r pl l b : (forall j, b j = AM (BReg r) (Z.of_nat j * 8)) -> length l = n -> regs m0 r = pl -> r <> RDX -> arr okaddr pl l m -> array lay okaddr n m0 b l.
Proof.
  intros Hb El Er Hr (A1 & A2 & A3 & A4) j v1 m1 Hj [He1 He2]. rewrite Hb. cbn [vrd]. destruct (A4 j ltac:(lia)) as [K1 K2].
  assert (Ea : addr lay m1 (BReg r) (Z.of_nat j * 8) = pl + 8 * Z.of_nat j). { unfold addr. rewrite He1, Er by exact Hr. rewrite Z.mod_small by lia. lia. }
  rewrite Ea, K1. replace ((pl + 8 * Z.of_nat j) mod 8) with 0; [|rewrite (Z.mul_comm 8), Z.mod_add by lia; auto]. cbn [Z.eqb andb]. rewrite He2. cbn [m0 setf setr mem]. rewrite K2. reflexivity.
Qed.
Lemma arr_sym sy l (m1 : mach) v1 j : arr okaddr (lay sy) l m -> (j < length l)%nat -> mem m1 = mem m -> vrd lay okaddr v1 m1 (AM (BSym sy) (Z.of_nat j * 8)) = Some (nth j l 0).
Proof.
  intros (A1 & A2 & A3 & A4) Hj Em. cbn [vrd]. destruct (A4 j Hj) as [K1 K2].
  assert (Ea : addr lay m1 (BSym sy) (Z.of_nat j * 8) = lay sy + 8 * Z.of_nat j). { unfold addr. rewrite Z.mod_small by lia. lia. }
  rewrite Ea, K1. replace ((lay sy + 8 * Z.of_nat j) mod 8) with 0; [|rewrite (Z.mul_comm 8), Z.mod_add by lia; auto]. cbn [Z.eqb andb]. rewrite Em, K2. reflexivity.
Qed.
Lemma q_array : array lay okaddr n m0 mq ql.
Proof. intros j v1 m1 Hj [He1 He2]. unfold mq. apply arr_sym; [exact Hmq|rewrite lenq; exact Hj|rewrite He2; reflexivity]. Qed.
Definition v0 := vupd (vupd v 2 np) 3 0.
Lemma base0 : Base np m0 v0 m0.
Proof. constructor; [apply vok_upd; [apply vok_upd; [exact Hv|exact Hnp]|pose proof B_pos; lia]|reflexivity|reflexivity|]. split; auto. Qed.
Notation Row' := (Row np m0).
Notation nt' := (nt n opt).
Definition post (X : Z) (m' : mach) : Prop :=
  (forall r, r <> RDX -> r <> RCX -> regs m' r = regs m r) /\
  exists l, limbs_ok n l /\ eval l < q /\ (eval l * B ^ Z.of_nat n) mod q = X mod q /\ wrote p l m m'.
Lemma template_spec upper A y :
  (forall v m, Base np m0 v m -> cf (fl m) = false -> ovf (fl m) = false -> wp' (upper 0%nat) (fun v m => Row' (A 1%nat) (S nt') v m /\ A 1%nat + (B - 1) * q < B ^ Z.of_nat (S nt')) v m) ->
  (forall i T K v m, (1 <= i < n)%nat -> Row' T nt' v m -> 0 <= K < B ^ Z.of_nat i -> B ^ Z.of_nat i * T = A i + K * q ->
     wp' (upper i) (fun v m => exists U, Row' U (S nt') v m /\ B ^ Z.of_nat i * U = A (S i) + K * q /\ U + (B - 1) * q < B ^ Z.of_nat (S nt')) v m) ->
  A n <= B ^ Z.of_nat n * y -> y <= q ->
  wp' (template n opt upper) (fun _ m' => post (A n) m') v m.
Proof.
  intros H0 H1 HA Hy. unfold template.
  apply wp_app. eapply wp_movr; [reflexivity|]. eapply wp_movm; [exact (arr_sym Snp [np] _ v 0 Hmnp (le_n _) eq_refl)|].
  eapply wp_op with (v1 := v0) (m1 := m0). { unfold vexec. cbn [vrds vrd sem vwrs vwr fst snd]. rewrite Z.lxor_nilpotent, Z.eqb_refl. reflexivity. }
  apply wp_nil. apply wp_app. eapply wp_mono; [|eapply (rows lay okaddr n opt) with (ql := ql) (A := A); try eassumption; [exact q_array|exact base0|reflexivity|reflexivity]].
  intros v1 m1 (T & K & R1 & R2 & R3). pose proof (Row_bound _ _ _ _ _ _ R1) as BT. assert (HT : T < 2 * q).
  { pose proof (Bpow_pos n). nia. }
  eapply wp_mono; [|eapply (tail_spec lay okaddr n opt) with (m0 := m0) (ql := ql) (p := p); try eassumption; try exact q_array; try exact Hpd; lia].
  intros v2 m2 (v3 & (S1 & S2 & S3) & S4 & S5). split; [intros r Hr Hr'; rewrite S1 by exact Hr; cbn [m0 setf setr regs]; rewrite rupd_neq by exact Hr'; reflexivity|].
  set (l := map (fun j => v3 (t + j)%nat) (seq 0 n)).
  assert (Ll : length l = n) by (unfold l; rewrite map_length, seq_length; reflexivity).
  assert (Nl : forall j, (j < n)%nat -> nth j l 0 = v3 (t + j)%nat).
  { intros j Hj. rewrite nth_indep with (d' := (fun j => v3 (t + j)%nat) 0%nat) by lia. unfold l. rewrite (map_nth (fun j => v3 (t + j)%nat) (seq 0 n) 0%nat j), seq_nth by exact Hj. reflexivity. }
  assert (El : eval l = ev v3 n) by (unfold l, ev; rewrite es_eval; reflexivity).
  exists l. split; [split; [exact Ll|]|]. { apply Forall_forall. intros x Hx. unfold l in Hx. apply in_map_iff in Hx as (j & <- & _). apply S4. }
  assert (EK : exists z, eval l * B ^ Z.of_nat n = A n + z * q). { rewrite El, S5. destruct (T <? q); [exists K; lia|exists (K - B ^ Z.of_nat n); lia]. }
  split; [rewrite El, S5; destruct (Z.ltb_spec T q); lia|]. split; [destruct EK as [z ->]; apply Z.mod_add; lia|].
  split; [intros j Hj; rewrite Ll in Hj; rewrite S2, Nl by exact Hj; reflexivity|]. intros x Hx. rewrite S3; [reflexivity|]. intros j Hj. apply Hx. rewrite Ll. exact Hj.
Qed.
Lemma row_mul_bound T a b : T < 2 * q -> 0 <= a < B -> 0 <= b < q -> T + a * b + (B - 1) * q < B ^ Z.of_nat (S nt').
Proof.
  intros HT Ha Hb. assert (a * b <= (B - 1) * q) by nia. apply Z.le_lt_trans with (2 * q + 2 * ((B - 1) * q)); [lia|]. replace (2 * q + 2 * ((B - 1) * q)) with (B * (2 * q)) by ring.
  rewrite Bpow_S. apply Z.mul_lt_mono_pos_l; [apply B_pos|]. unfold nt. destruct opt; [apply Hopt; reflexivity|]. rewrite Bpow_S. change B with 18446744073709551616 in *; lia.
Qed.
(** *** mul *)
Variable a b : list Z.
Hypothesis Ha : limbs_ok n a.
Hypothesis Hb : limbs_ok n b.
Definition A_mul i := es (bnth a) i * eval b.
Lemma bnth_range l j : limbs_ok n l -> 0 <= bnth l j < B. Proof. intros H. apply (nl_range l n), H. Qed.
Lemma A_mul_le : A_mul n <= B ^ Z.of_nat n * eval b.
Proof.
  unfold A_mul. pose proof (es_bound (bnth a) n (fun j _ => bnth_range a j Ha)) as H. pose proof (eval_bound n b Hb) as H'. apply Z.mul_le_mono_nonneg_r; lia.
Qed.
Lemma A_mul_n : A_mul n = eval a * eval b.
Proof. unfold A_mul. f_equal. unfold bnth. apply es_nth, Ha. Qed.
Lemma rows_mul upper first B' : eval b < q -> array lay okaddr n m0 B' b -> array lay okaddr n m0 mrsi a ->
  (forall v m, Env m0 m -> regs m RDX = nth 0 a 0 -> vrd lay okaddr v m first = Some (nth 0 b 0)) ->
  (forall i, upper i = [Op Imov [AR RDX; mrsi i]] ++ if Nat.eqb i 0 then firstRow n opt first B' else nextRow n opt B') ->
  wp' (template n opt upper) (fun _ m' => post (eval a * eval b) m') v m.
Proof.
  intros Hbq HB HA Hf Hu. rewrite <- A_mul_n. pose proof (eval_bound n b Hb) as Rb. apply template_spec with (y := eval b); [| |exact A_mul_le|lia].
  - intros v1 m1 H1 H2 H3. rewrite Hu. cbn [Nat.eqb]. apply wp_app. eapply wp_movr; [apply HA; [exact Hn|apply H1]|]. apply wp_nil. pose proof (bnth_range a 0 Ha) as R0.
    eapply wp_mono; [|eapply (first_row lay okaddr n opt np m0 Hn first B' b (nth 0 a 0))]; [| exact Hb|exact HB|exact Hf|exact R0|apply Base_rdx, H1|exact H2|exact H3|cbn [setr regs]; apply rupd_eq].
    intros v2 m2 R. assert (E1 : A_mul 1 = nth 0 a 0 * eval b) by (unfold A_mul; cbn [es]; unfold bnth; cbn [Z.of_nat]; change (B ^ 0) with 1; ring). rewrite E1. split; [exact R|].
    pose proof (row_mul_bound 0 (nth 0 a 0) (eval b) ltac:(lia) R0 ltac:(lia)). lia.
  - intros i T K v1 m1 Hi R1 HK HT. rewrite Hu. replace (Nat.eqb i 0) with false by (symmetry; apply Nat.eqb_neq; lia). apply wp_app. eapply wp_movr; [apply HA; [lia|apply R1]|]. apply wp_nil. pose proof (bnth_range a i Ha) as R0.
    assert (T2 : T < 2 * q). { pose proof (es_bound (bnth a) i (fun j _ => bnth_range a j Ha)) as H. unfold A_mul in HT. pose proof (Bpow_pos i). assert (es (bnth a) i * eval b <= B ^ Z.of_nat i * eval b) by (apply Z.mul_le_mono_nonneg_r; lia). nia. }
    pose proof (row_mul_bound T (nth i a 0) (eval b) T2 R0 ltac:(lia)) as Lt.
    assert (R2 : Row' T nt' v1 (setr m1 RDX (nth i a 0))) by (destruct R1 as [K1 K2 K3 K4]; constructor; [apply Base_rdx, K1|exact K2|exact K3|exact K4]).
    eapply wp_mono; [|eapply (next_row lay okaddr n opt np m0 Hn B' b (nth i a 0) T)]; [|exact Hb|exact HB|exact R0|exact R2|cbn [setr regs]; apply rupd_eq|pose proof B_pos; nia].
    intros v2 m2 R. exists (T + nth i a 0 * eval b). split; [exact R|]. split; [|exact Lt]. rewrite Z.mul_add_distr_l, HT. unfold A_mul. cbn [es]. unfold bnth at 3. ring.
Qed.
Lemma vm_mul pa pb : eval b < q -> regs m RSI = pa -> regs m RDX = pb -> arr okaddr pa a m -> arr okaddr pb b m ->
  wp' (template n opt (mulUpper n opt)) (fun _ m' => post (eval a * eval b) m') v m.
Proof.
  intros Hbq Era Erb HA HB.
  assert (AB : array lay okaddr n m0 mrcx b) by (apply (arr_array RCX pb); [reflexivity|apply Hb|cbn [m0 setf setr regs]; rewrite rupd_eq; exact Erb|discriminate|exact HB]).
  apply rows_mul with (first := AM (BReg RCX) 0) (B' := mrcx); [exact Hbq|exact AB| | |reflexivity].
  - apply (arr_array RSI pa); [reflexivity|apply Ha|exact Era|discriminate|exact HA].
  - intros v1 m1 He _. exact (AB 0%nat v1 m1 Hn He).
Qed.
End Mont2.

Section Others.
Variable lay : sym -> Z.
Variable okaddr : Z -> bool.
Variable n : nat.
Variable opt : bool.
Hypothesis Hn : (1 <= n)%nat.
Variable q np : Z.
Variable ql : list Z.
Hypothesis Hql : limbs_ok n ql.
Hypothesis Hqe : eval ql = q.
Hypothesis Hq1 : 1 < q.
Hypothesis Hqn : q < B ^ Z.of_nat n.
Hypothesis Hopt : opt = true -> 2 * q < B ^ Z.of_nat n.
Hypothesis Hnp : 0 <= np < B.
Hypothesis Hnq : (q * np + 1) mod B = 0.
Variable m : mach.
Variable v : nat -> Z.
Hypothesis Hv : vok v.
Hypothesis Hregs : forall r, 0 <= regs m r < B.
Hypothesis Hmq : arr okaddr (lay Sq) ql m.
Hypothesis Hmnp : arr okaddr (lay Snp) [np] m.
Variable p : Z.
Hypothesis Hpd : regs m RDI = p.
Hypothesis Hp0 : 0 <= p.
Hypothesis Hp8 : p mod 8 = 0.
Hypothesis HpB : p + 8 * Z.of_nat n <= B.
Hypothesis Hpok : forall j, (j < n)%nat -> okaddr (p + 8 * Z.of_nat j) = true.
Notation wp' := (wp lay okaddr).
Notation m0 := (X86Mont2.m0 m).
Notation nt' := (nt n opt).
Notation post' := (post n q m p).
Variable a : list Z.
Hypothesis Ha : limbs_ok n a.
Variable pa : Z.
Hypothesis Era : regs m RSI = pa.
Hypothesis HA : arr okaddr pa a m.
Lemma arr_rsi : array lay okaddr n m0 mrsi a.
Proof. eapply arr_array with (r := RSI) (pl := pa); try eassumption; [reflexivity|apply Ha|discriminate]. Qed.
Lemma vm_square : eval a < q -> wp' (template n opt (squareUpper n opt)) (fun _ m' => post' (eval a * eval a) m') v m.
Proof.
  intros Haq. eapply rows_mul with (np := np) (ql := ql) (first := AR RDX) (B' := mrsi); try eassumption; try exact arr_rsi; [|reflexivity].
  intros v1 m1 _ E. cbn [vrd]. rewrite E. reflexivity.
Qed.
Lemma red_row T v1 m1 i X K : Row np m0 T nt' v1 m1 -> B ^ Z.of_nat i * T = X + K * q ->
  wp' (clearTop n opt) (fun v m => exists U, Row np m0 U (S nt') v m /\ B ^ Z.of_nat i * U = X + K * q /\ U + (B - 1) * q < B ^ Z.of_nat (S nt')) v1 m1.
Proof.
  intros R E. pose proof (Row_bound _ _ _ _ _ _ R) as Rb. eapply wp_mono; [|apply clear_top; exact R]. intros v2 m2 R2. exists T. split; [exact R2|]. split; [exact E|].
  pose proof (Bpow_opt n opt q Hn Hq1 Hqn Hopt). lia.
Qed.
Lemma vm_mul1 w : regs m RDX = w -> eval a < q -> wp' (template n opt (mul1Upper n opt)) (fun _ m' => post' (w * eval a) m') v m.
Proof.
  intros Ew Haq. pose proof (eval_bound n a Ha) as Ra. assert (Rw : 0 <= w < B) by (rewrite <- Ew; apply Hregs).
  eapply template_spec with (np := np) (ql := ql) (A := fun _ => w * eval a) (y := eval a); try eassumption; [| | |lia].
  - intros v1 m1 H1 H2 H3. unfold mul1Upper. cbn [Nat.eqb]. apply wp_app. eapply wp_movr; [reflexivity|]. apply wp_nil.
    assert (Er : regs m1 RCX = w). { destruct (b_env _ _ _ _ H1) as [E _]. rewrite E by discriminate. cbn [X86Mont2.m0 setf setr regs]. rewrite rupd_eq. exact Ew. }
    rewrite Er. eapply wp_mono; [|eapply (first_row lay okaddr n opt np m0 Hn (AM (BReg RSI) 0) mrsi a w)]; [|exact Ha|exact arr_rsi| |exact Rw|apply Base_rdx, H1|exact H2|exact H3|cbn [setr regs]; apply rupd_eq].
    + intros v2 m2 R. split; [exact R|]. assert (0 + w * eval a + (B - 1) * q < B ^ Z.of_nat (S nt')) by (eapply row_mul_bound; try eassumption; lia). lia.
    + intros v2 m2 He _. exact (arr_rsi 0%nat v2 m2 Hn He).
  - intros i T K v1 m1 Hi R1 HK HT. unfold mul1Upper. replace (Nat.eqb i 0) with false by (symmetry; apply Nat.eqb_neq; lia). apply red_row with (T := T); assumption.
  - rewrite Z.mul_comm, (Z.mul_comm _ (eval a)). apply Z.mul_le_mono_nonneg_l; [lia|]. pose proof (Bpow_le 1 n Hn) as P. change (B ^ Z.of_nat 1) with B in P. lia.
Qed.
Lemma vm_from : wp' (template n opt (fromUpper n opt)) (fun _ m' => post' (eval a) m') v m.
Proof.
  pose proof (eval_bound n a Ha) as Ra.
  eapply template_spec with (np := np) (ql := ql) (A := fun _ => eval a) (y := 1); try eassumption; [| | |lia].
  - intros v1 m1 H1 H2 H3. unfold fromUpper. cbn [Nat.eqb]. apply wp_app. rewrite X86Sim_map.
    set (J := fun j v' m' => Base np m0 v' m' /\ cf (fl m') = false /\ ovf (fl m') = false /\ ev v' j = es (bnth a) j).
    eapply wp_mono; [|apply (wp_seq lay okaddr J) with (s := 0%nat)].
    + intros v2 m2 (K1 & K2 & K3 & K4). cbn [Nat.add] in K4. assert (Ee : ev v2 n = eval a) by (rewrite K4; apply es_nth, Ha).
      assert (B4 : forall x, Base np m0 (vupd x (t + n) 0) m2 <-> Base np m0 (vupd x (t + n) 0) m2) by tauto. clear B4.
      assert (R : forall v3, Base np m0 v3 m2 -> ev v3 (S nt') = eval a -> Row np m0 (eval a) (S nt') v3 m2 /\ eval a + (B - 1) * q < B ^ Z.of_nat (S nt')).
      { intros v3 L1 L2. split; [constructor; assumption|]. pose proof (Bpow_opt n opt q Hn Hq1 Hqn Hopt). pose proof (Bpow_le n nt' (nt_n n opt)). lia. }
      assert (Z0 : 0 <= 0 < B) by (pose proof B_pos; lia).
      apply wp_app. apply wp_mov. apply wp_nil. rewrite (b_3 _ _ _ _ K1). set (v3 := vupd v2 (t + n) 0).
      assert (B3 : Base np m0 v3 m2) by (apply Base_upd; [right; right; unfold t; lia|exact Z0|exact K1]).
      assert (E3 : ev v3 (S n) = eval a) by (rewrite ev_S; unfold v3; rewrite vupd_eq, ev_upd_out by (unfold t; lia); rewrite Ee; ring).
      unfold nt in R |- *. destruct opt.
      * apply wp_nil. apply R; assumption.
      * apply wp_mov. apply wp_nil. rewrite (b_3 _ _ _ _ B3). replace (t + n + 1)%nat with (t + S n)%nat by lia. apply R.
        -- apply Base_upd; [right; right; unfold t; lia|exact Z0|exact B3].
        -- rewrite ev_S, vupd_eq, ev_upd_out by (unfold t; lia). rewrite E3. ring.
    + intros j v2 m2 Hj (K1 & K2 & K3 & K4). eapply wp_movm; [apply arr_rsi; [lia|apply K1]|]. apply wp_nil. split; [apply Base_upd; [right; right; unfold t; lia|apply (nl_range a n), Ha|exact K1]|]. split; [exact K2|]. split; [exact K3|].
      rewrite ev_S, vupd_eq, ev_upd_out by (unfold t; lia). rewrite K4. reflexivity.
    + split; [exact H1|]. split; [exact H2|]. split; [exact H3|]. reflexivity.
  - intros i T K v1 m1 Hi R1 HK HT. unfold fromUpper. replace (Nat.eqb i 0) with false by (symmetry; apply Nat.eqb_neq; lia). apply red_row with (T := T); assumption.
  - lia.
Qed.
End Others.
