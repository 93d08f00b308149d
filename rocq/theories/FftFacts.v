(** The FFT loops: effect of each parallel loop. *)
From Coq Require Import ZArith List Bool Lia Permutation.
From Verif Require Import Multiexp MultiexpFacts MsmFacts Tower Par ParFacts Threads ThreadsFacts Fft.
Import ListNotations.
Open Scope Z_scope.
Ltac Zify.zify_post_hook ::= idtac.

Lemma log2_loop_ok fuel : forall n res, 1 <= n -> Z.log2 n <= Z.of_nat fuel -> 0 <= res -> res + Z.log2 n < 2 ^ 32 -> log2_loop fuel n res = Some (res + Z.log2 n).
Proof.
  induction fuel as [|k IH]; intros n res Hn Hl Hr Hb; cbn [log2_loop].
  - destruct (Z.eqb_spec n 1) as [->|N1]; [change (Z.log2 1) with 0; rewrite Z.add_0_r; reflexivity|]. pose proof (Z.log2_pos n). lia.
  - destruct (Z.eqb_spec n 1) as [->|N1]; [change (Z.log2 1) with 0; rewrite Z.add_0_r; reflexivity|].
    pose proof (Z.log2_pos n ltac:(lia)) as LP. rewrite Z.shiftr_div_pow2 by lia. change (2 ^ 1) with 2.
    assert (L2 : Z.log2 (n / 2) = Z.log2 n - 1). { change 2 with (2 ^ 1). rewrite <- Z.shiftr_div_pow2 by lia. rewrite Z.log2_shiftr by lia. lia. }
    unfold w32. rewrite Z.mod_small by lia. rewrite IH; [f_equal; lia|apply Z.div_le_lower_bound; lia|lia|lia|lia].
Qed.
Lemma fft_log2_ok n : 1 <= n < 2 ^ 64 -> fft_log2 n = Some (Z.log2 n).
Proof.
  intros H. unfold fft_log2. destruct (Z.eqb_spec n 0); [lia|]. assert (Z.log2 n < 64) by (apply Z.log2_lt_pow2; lia). rewrite log2_loop_ok; try lia. f_equal.
Qed.

(** ** bit reversal *)
Fixpoint rev (p : nat) (x : Z) : Z := match p with O => 0 | S p => (x mod 2) * 2 ^ Z.of_nat p + rev p (x / 2) end.
Lemma rev_bound p : forall x, 0 <= rev p x < 2 ^ Z.of_nat p.
Proof.
  induction p as [|p IH]; intros x; [cbn; lia|]. cbn [rev]. rewrite Nat2Z.inj_succ, Z.pow_succ_r by lia. specialize (IH (x / 2)). pose proof (Z.mod_pos_bound x 2). nia.
Qed.
Lemma rev_testbit p : forall x i, 0 <= i < Z.of_nat p -> Z.testbit (rev p x) i = Z.testbit x (Z.of_nat p - 1 - i).
Proof.
  induction p as [|p IH]; intros x i Hi; [lia|]. cbn [rev]. pose proof (rev_bound p (x / 2)) as RB. pose proof (Z.mod_pos_bound x 2 ltac:(lia)) as MB.
  destruct (Z.eq_dec i (Z.of_nat p)) as [->|Ni].
  - replace (Z.of_nat (S p) - 1 - Z.of_nat p) with 0 by lia. rewrite (Z.bit0_odd x). set (t := _ + _).
    pose proof (Z.div_pow2_bits t (Z.of_nat p) 0 ltac:(lia) ltac:(lia)) as Q. rewrite Z.add_0_l in Q. rewrite <- Q. unfold t. rewrite Z.add_comm, Z.div_add by (apply Z.pow_nonzero; lia). rewrite Z.div_small by lia. rewrite Z.bit0_odd, Zmod_odd. destruct (Z.odd x); reflexivity.
  - rewrite <- (Z.mod_pow2_bits_low _ (Z.of_nat p)) by lia. rewrite Z.add_comm, Z_mod_plus_full. rewrite Z.mod_small by lia. rewrite IH by lia.
    replace (Z.of_nat (S p) - 1 - i) with (Z.of_nat p - 1 - i + 1) by lia. change 2 with (2 ^ 1). rewrite Z.div_pow2_bits by lia. reflexivity.
Qed.
Lemma rev_invol p x : 0 <= x < 2 ^ Z.of_nat p -> rev p (rev p x) = x.
Proof.
  intros H. apply Z.bits_inj'. intros i Hi. destruct (Z.lt_ge_cases i (Z.of_nat p)).
  - rewrite rev_testbit by lia. rewrite rev_testbit by lia. f_equal. lia.
  - rewrite <- (Z.mod_small x (2 ^ Z.of_nat p)) by lia. rewrite <- (Z.mod_small (rev p _) (2 ^ Z.of_nat p)) by apply rev_bound. rewrite !Z.mod_pow2_bits_high by lia. reflexivity.
Qed.
(** the high bits recursion *)
Lemma rev_hi p : forall b, 0 <= b < 2 ^ Z.of_nat p -> rev (S p) (2 * b) = rev p b /\ rev (S p) (2 * b + 1) = rev p b + 2 ^ Z.of_nat p.
Proof.
  intros b Hb. cbn [rev]. replace (2 * b) with (b * 2) by lia. rewrite Z.mod_mul, Z.div_mul by lia. split; [lia|].
  rewrite (Z.add_comm (b * 2)), Z_mod_plus_full, Z.div_add by lia. change (1 mod 2) with 1. change (1 / 2) with 0. rewrite Z.add_0_l. lia.
Qed.
Lemma tb_shl x k i : 0 <= i < 64 -> Z.testbit (w64 (Z.shiftl x k)) i = Z.testbit x (i - k).
Proof. intros H. unfold w64. rewrite Z.mod_pow2_bits_low by lia. apply Z.shiftl_spec. lia. Qed.
(** one step of BR exchanges neighbouring groups of k bits *)
Definition swap_step (k hi lo x : Z) : Z := Z.lor (Z.shiftr (Z.land x hi) k) (w64 (Z.shiftl (Z.land x lo) k)).
Definition swap_check (k hi lo : Z) : bool :=
  forallb (fun i => if Z.testbit hi (i + k) then negb (Z.testbit lo (i - k)) && (Z.lxor i k =? i + k) else Z.testbit lo (i - k) && (Z.lxor i k =? i - k)) (zrange 0 32).
Lemma swap_bits k hi lo x i : 0 <= k -> swap_check k hi lo = true -> 0 <= i < 32 -> Z.testbit (swap_step k hi lo x) i = Z.testbit x (Z.lxor i k).
Proof.
  intros Hk C Hi. unfold swap_check in C. rewrite forallb_forall in C. specialize (C i ltac:(apply zrange_in; lia)). cbv beta in C.
  unfold swap_step. rewrite Z.lor_spec, Z.shiftr_spec, tb_shl, !Z.land_spec by lia. destruct (Z.testbit hi (i + k)); apply andb_prop in C; destruct C as [C1 C2]; apply Z.eqb_eq in C2; rewrite C2.
  - destruct (Z.testbit lo (i - k)); [discriminate|]. rewrite !andb_true_r, !andb_false_r. apply orb_false_r.
  - rewrite C1. rewrite !andb_true_r, !andb_false_r. reflexivity.
Qed.
Lemma lxor_bound k i : 0 <= k < 32 -> 0 <= i < 32 -> 0 <= Z.lxor i k < 32.
Proof.
  intros Hk Hi. assert (0 <= Z.lxor i k) by (apply Z.lxor_nonneg; lia). split; [lia|]. destruct (Z.eq_dec (Z.lxor i k) 0) as [->|N]; [lia|].
  apply (Z.log2_lt_pow2 _ 5); [lia|]. pose proof (Z.log2_lxor i k ltac:(lia) ltac:(lia)).
  assert (forall x, 0 <= x < 32 -> Z.log2 x < 5) as L. { intros x Hx. destruct (Z.eq_dec x 0) as [->|]; [reflexivity|]. apply Z.log2_lt_pow2; lia. }
  pose proof (L i Hi). pose proof (L k Hk). lia.
Qed.
Lemma BR_eq x dp : BR x dp = Z.shiftr (swap_step 1 0xAAAAAAAA 0x55555555 (swap_step 2 0xCCCCCCCC 0x33333333 (swap_step 4 0xF0F0F0F0 0x0F0F0F0F (swap_step 8 0xFF00FF00 0x00FF00FF
  (Z.lor (Z.shiftr x 16) (w64 (Z.shiftl x 16))))))) (32 - dp).
Proof. reflexivity. Qed.
Lemma swap16 x i : 0 <= x < 2 ^ 32 -> 0 <= i < 32 -> Z.testbit (Z.lor (Z.shiftr x 16) (w64 (Z.shiftl x 16))) i = Z.testbit x (Z.lxor i 16).
Proof.
  intros Hx Hi. rewrite Z.lor_spec, Z.shiftr_spec, tb_shl by lia.
  assert (C : forallb (fun i => if i <? 16 then Z.lxor i 16 =? i + 16 else Z.lxor i 16 =? i - 16) (zrange 0 32) = true) by (vm_compute; reflexivity).
  rewrite forallb_forall in C. specialize (C i ltac:(apply zrange_in; lia)). cbv beta in C. destruct (Z.ltb_spec i 16); apply Z.eqb_eq in C; rewrite C.
  - rewrite (Z.testbit_neg_r x (i - 16)) by lia. apply orb_false_r.
  - rewrite <- (Z.mod_small x (2 ^ 32)) at 1 by lia. rewrite Z.mod_pow2_bits_high by lia. reflexivity.
Qed.
Lemma BR_ok x p : (p <= 32)%nat -> 0 <= x < 2 ^ Z.of_nat p -> BR x (Z.of_nat p) = rev p x.
Proof.
  intros Hp Hx. assert (Hx32 : 0 <= x < 2 ^ 32). { split; [lia|]. eapply Z.lt_le_trans; [apply Hx|]. apply Z.pow_le_mono_r; lia. }
  rewrite BR_eq. set (s1 := swap_step 1 _ _ _).
  assert (B : forall i, 0 <= i < 32 -> Z.testbit s1 i = Z.testbit x (31 - i)).
  { intros i Hi. unfold s1. rewrite swap_bits by (try lia; vm_compute; reflexivity).
    pose proof (lxor_bound 1 i ltac:(lia) Hi) as B1. rewrite swap_bits by (try lia; try (vm_compute; reflexivity); exact B1).
    pose proof (lxor_bound 2 _ ltac:(lia) B1) as B2. rewrite swap_bits by (try lia; try (vm_compute; reflexivity); exact B2).
    pose proof (lxor_bound 4 _ ltac:(lia) B2) as B3. rewrite swap_bits by (try lia; try (vm_compute; reflexivity); exact B3).
    pose proof (lxor_bound 8 _ ltac:(lia) B3) as B4. rewrite swap16 by assumption. f_equal.
    assert (C : forallb (fun i => Z.lxor (Z.lxor (Z.lxor (Z.lxor (Z.lxor i 1) 2) 4) 8) 16 =? 31 - i) (zrange 0 32) = true) by (vm_compute; reflexivity).
    rewrite forallb_forall in C. specialize (C i ltac:(apply zrange_in; lia)). apply Z.eqb_eq in C. exact C. }
  assert (H : forall i, 32 <= i -> Z.testbit s1 i = false).
  { intros i Hi. unfold s1, swap_step. rewrite Z.lor_spec, Z.shiftr_spec, Z.land_spec by lia. rewrite (Z.bits_above_log2 0xAAAAAAAA) by (try lia; change (Z.log2 0xAAAAAAAA) with 31; lia).
    rewrite andb_false_r. cbn [orb]. destruct (Z.lt_ge_cases i 64).
    - rewrite tb_shl, Z.land_spec by lia. rewrite (Z.bits_above_log2 0x55555555) by (try lia; change (Z.log2 0x55555555) with 30; lia). apply andb_false_r.
    - unfold w64. apply Z.mod_pow2_bits_high. lia. }
  apply Z.bits_inj'. intros i Hi. rewrite Z.shiftr_spec by lia. destruct (Z.lt_ge_cases i (Z.of_nat p)).
  - rewrite B, rev_testbit by lia. f_equal. lia.
  - rewrite H by lia. rewrite <- (Z.mod_small (rev p x) (2 ^ Z.of_nat p)) by apply rev_bound. rewrite Z.mod_pow2_bits_high by lia. reflexivity.
Qed.

(** ** sequences of iterations on disjoint cells *)
Section Seq.
Variable V : Type.
Variable body : Z -> Z -> list (instr V).
Variable cells : Z -> Z -> Prop.
Variable eff : Z -> pmem V -> Z -> V.
Definition same_tables (m m' : pmem V) : Prop := forall a i, a <> 0%nat -> m (Sh a i) = m' (Sh a i).
Variable dom : Z -> Prop.
Hypothesis cells_dec : forall i p, dom i -> cells i p \/ ~ cells i p.
Hypothesis cells_disj : forall i j p, dom i -> dom j -> cells i p -> cells j p -> i = j.
Hypothesis eff_ext : forall i p m m', dom i -> cells i p -> same_tables m m' -> (forall c, cells i c -> m (Sh 0 c) = m' (Sh 0 c)) -> eff i m p = eff i m' p.
Hypothesis body_ok : forall th i m, dom i -> same_tables (prun (body th i) m) m /\ forall p, (cells i p -> prun (body th i) m (Sh 0 p) = eff i m p) /\ (~ cells i p -> prun (body th i) m (Sh 0 p) = m (Sh 0 p)).
Lemma same_tables_trans m m' m'' : same_tables m m' -> same_tables m' m'' -> same_tables m m''.
Proof. intros H H' a i N. rewrite H by exact N. apply H', N. Qed.
Lemma seq_ok its : forall m, NoDup (map snd its) -> (forall it, In it its -> dom (snd it)) ->
  let m' := prun (flat_map (fun it => body (fst it) (snd it)) its) m in
  same_tables m' m /\ (forall i p, In i (map snd its) -> cells i p -> m' (Sh 0 p) = eff i m p) /\ (forall p, (forall i, In i (map snd its) -> ~ cells i p) -> m' (Sh 0 p) = m (Sh 0 p)).
Proof.
  induction its as [|[th i] its IH]; intros m ND D m'.
  - unfold m'. cbn. split; [intros a j N; reflexivity|]. split; [intros i p []|reflexivity].
  - cbn [map snd] in ND. inversion ND as [|? ? Ni ND']; subst. unfold m'. cbn [flat_map fst snd map]. rewrite prun_app.
    assert (Di : dom i) by (apply (D (th, i)); left; reflexivity). destruct (body_ok th i m Di) as [T0 B0].
    destruct (IH (prun (body th i) m) ND') as (T1 & C1 & O1); [intros; apply D; right; assumption|]. split; [eapply same_tables_trans; eassumption|].
    assert (Dj : forall j, In j (map snd its) -> dom j). { intros j Hj. apply in_map_iff in Hj. destruct Hj as (it & <- & Hit). apply D. right. exact Hit. }
    split.
    + intros j p [<-|Hj] Hc.
      * rewrite O1; [apply B0, Hc|]. intros j Hj Hc'. apply Ni. rewrite (cells_disj i j p Di (Dj j Hj) Hc Hc'). exact Hj.
      * rewrite (C1 j p Hj Hc). apply eff_ext; auto. intros c Hcc. apply B0. intros Hci. apply Ni. rewrite (cells_disj i j c Di (Dj j Hj) Hci Hcc). exact Hj.
    + intros p Hp. rewrite O1; [apply B0, Hp; left; reflexivity|]. intros j Hj. apply Hp. right. exact Hj.
Qed.
End Seq.

(** ** the three loops *)
Section Loops.
Variable K : rng.
Implicit Types m : pmem K.
Local Ltac mstep := unfold exec1; cbn [dst srcs fn map Imul Iadd Isub Icopy arg1 arg2].
Local Ltac mread := repeat first [rewrite pset_same | rewrite pset_other by congruence].
Lemma icopy m d x : exec1 (Icopy K d x) m = pset m d (m x). Proof. reflexivity. Qed.
Lemma imul m d x y : exec1 (Imul K d x y) m = pset m d (rmul (m x) (m y)). Proof. reflexivity. Qed.
Lemma iadd m d x y : exec1 (Iadd K d x y) m = pset m d (radd (m x) (m y)). Proof. reflexivity. Qed.
Lemma isub m d x y : exec1 (Isub K d x y) m = pset m d (rsub (m x) (m y)). Proof. reflexivity. Qed.
Variable nT : Z.
Hypothesis HT : 1 <= nT < 2 ^ 31.

Lemma rev_inj p i j : 0 <= i < 2 ^ Z.of_nat p -> 0 <= j < 2 ^ Z.of_nat p -> rev p i = rev p j -> i = j.
Proof. intros Hi Hj E. rewrite <- (rev_invol p i Hi), <- (rev_invol p j Hj), E. reflexivity. Qed.
Lemma noconf_lists (t u : list (instr K)) : (forall x y, In x t -> In y u -> noconf x y) -> indep t u. Proof. auto. Qed.
Lemma rev_indep p b e : (p <= 30)%nat -> 0 <= b -> e <= 2 ^ Z.of_nat p -> iter_indep K (rev_body K (Z.of_nat p)) b e.
Proof.
  intros Hp Hb He i j th th' Hi Hj N Nt. unfold rev_body. rewrite !BR_ok by lia.
  assert (Bi : 0 <= i < 2 ^ Z.of_nat p) by lia. assert (Bj : 0 <= j < 2 ^ Z.of_nat p) by lia.
  destruct (Z.ltb_spec (rev p i) i) as [Li|Li]; [|intros x y []]. destruct (Z.ltb_spec (rev p j) j) as [Lj|Lj]; [|intros x y _ []].
  assert (D : rev p i <> rev p j) by (intros E; apply N, (rev_inj p); assumption).
  assert (D1 : rev p i <> j). { intros E. rewrite <- E, rev_invol in Lj by assumption. lia. }
  assert (D2 : rev p j <> i). { intros E. rewrite <- E, rev_invol in Li by assumption. lia. }
  intros x y Hx Hy. cbn [In] in Hx, Hy. destruct Hx as [<-|[<-|[<-|[]]]], Hy as [<-|[<-|[<-|[]]]]; unfold noconf; cbn [dst srcs Icopy In]; repeat split; try intros [Q|[]]; congruence.
Qed.
Definition rcells (p : nat) (i c : Z) : Prop := rev p i < i /\ (c = i \/ c = rev p i).
Definition reff (p : nat) (i : Z) (m : pmem K) (c : Z) : K := if c =? i then m (Sh 0 (rev p i)) else m (Sh 0 i).
Lemma rev_loop p m m' : (p <= 30)%nat -> parfor K nT 0 (2 ^ Z.of_nat p) (rev_body K (Z.of_nat p)) m m' ->
  same_tables K m' m /\ (forall k, 0 <= k < 2 ^ Z.of_nat p -> m' (Sh 0 k) = m (Sh 0 (rev p k))) /\ (forall k, ~ 0 <= k < 2 ^ Z.of_nat p -> m' (Sh 0 k) = m (Sh 0 k)).
Proof.
  intros Hp H. set (n := 2 ^ Z.of_nat p) in *. assert (Hn : 1 <= n <= 2 ^ 30). { unfold n. pose proof (Z.pow_pos_nonneg 2 (Z.of_nat p)). split; [lia|]. apply Z.pow_le_mono_r; lia. }
  apply parfor_seq in H; [|exact HT|lia|lia|apply rev_indep; [exact Hp|lia|unfold n; lia]]. destruct H as (its & E1 & E2 & E3).
  assert (Hin : forall i, In i (map snd its) <-> 0 <= i < n). { intros i. rewrite E1, zrange_in. lia. }
  destruct (seq_ok K (rev_body K (Z.of_nat p)) (rcells p) (reff p) (fun i => 0 <= i < n)) with (its := its) (m := m) as (T & C & O).
  - intros i j q Hi Hj [L1 C1] [L2 C2]. destruct C1 as [C1|C1], C2 as [C2|C2]; try congruence.
    + exfalso. subst q. rewrite C2, rev_invol in L1 by assumption. lia.
    + exfalso. subst q. rewrite <- C2, rev_invol in L2 by assumption. lia.
    + apply (rev_inj p); try assumption; congruence.
  - intros i q m1 m2 Hi [L Cq] _ Hc. unfold reff. destruct (q =? i); apply Hc; split; auto.
  - intros th i m1 Hi. unfold rev_body. rewrite BR_ok by (try lia; exact Hi). unfold rcells, reff. destruct (Z.ltb_spec (rev p i) i) as [L|L].
    + cbn [prun fold_left]. rewrite !icopy. split.
      * intros a x Na. mread. reflexivity.
      * intros q. split.
        -- intros [_ [->| ->]].
           ++ rewrite Z.eqb_refl. assert (Sh 0 i <> Sh 0 (rev p i)) by (intros E; injection E; lia). mread. reflexivity.
           ++ destruct (Z.eqb_spec (rev p i) i); [lia|]. mread. reflexivity.
        -- intros Nq. assert (Sh 0 q <> Sh 0 i) by (intros E; injection E as E; apply Nq; auto). assert (Sh 0 q <> Sh 0 (rev p i)) by (intros E; injection E as E; apply Nq; auto). mread. reflexivity.
    + cbn [prun fold_left]. split; [intros a x _; reflexivity|]. intros q. split; [lia|reflexivity].
  - rewrite E1. apply zrange_nodup.
  - intros it Hit. apply Hin, in_map, Hit.
  - assert (T' : same_tables K m' m) by (intros a i Na; rewrite E3; apply T, Na). split; [exact T'|]. split.
    + intros k Hk. rewrite E3. pose proof (rev_bound p k) as RB. fold n in RB. destruct (Z.lt_trichotomy (rev p k) k) as [L|[L|L]].
      * rewrite (C k k); [|apply Hin; lia|split; auto]. unfold reff. rewrite Z.eqb_refl. reflexivity.
      * rewrite O, L; [reflexivity|]. intros i Hi [Li [Ci|Ci]]; [subst i; lia|]. apply Hin in Hi. assert (rev p k = i) by (rewrite Ci; apply rev_invol; exact Hi). lia.
      * rewrite (C (rev p k) k); [|apply Hin; lia|split; [rewrite rev_invol by assumption; exact L|right; rewrite rev_invol by assumption; reflexivity]].
        unfold reff. destruct (Z.eqb_spec k (rev p k)); [lia|reflexivity].
    + intros k Hk. rewrite E3. apply O. intros i Hi [Li [Ci|Ci]]; apply Hin in Hi; [lia|]. pose proof (rev_bound p i) as RB. fold n in RB. lia.
Qed.

(** butterflies: h is half the block size *)
Definition lo (h i : Z) : Z := i / h * (2 * h) + i mod h.
Lemma lo_split h b j : 0 < h -> 0 <= j < h -> lo h (b * h + j) = b * (2 * h) + j.
Proof. intros Hh Hj. unfold lo. rewrite Z.div_add_l by lia. rewrite (Z.div_small j) by lia. rewrite Z.add_comm, (Z.add_comm (b * h)), Z_mod_plus_full, Z.mod_small by lia. lia. Qed.
Lemma lo_inj h i j : 0 < h -> (lo h i = lo h j -> i = j) /\ lo h i <> lo h j + h.
Proof.
  intros Hh. unfold lo. pose proof (Z.div_mod i h ltac:(lia)) as Di. pose proof (Z.div_mod j h ltac:(lia)) as Dj. pose proof (Z.mod_pos_bound i h Hh). pose proof (Z.mod_pos_bound j h Hh).
  set (a := i / h) in *. set (b := j / h) in *. split; intros E.
  - assert (a = b); [|lia]. destruct (Z.lt_trichotomy a b) as [L|[L|L]]; [nia|exact L|nia].
  - destruct (Z.lt_trichotomy a b) as [L|[L|L]]; [nia|subst b; rewrite L in E; lia|nia].
Qed.
Definition bcells (h i c : Z) : Prop := c = lo h i \/ c = lo h i + h.
Definition beff (h : Z) (rt : Z -> Z) (i : Z) (m : pmem K) (c : Z) : K :=
  let t := rmul (m (Sh 1 (rt (i mod h)))) (m (Sh 0 (lo h i + h))) in
  if c =? lo h i then radd t (m (Sh 0 (lo h i))) else rsub (m (Sh 0 (lo h i))) t.
Lemma shl_pow s : 1 <= s -> Z.shiftl 1 s = 2 * 2 ^ (s - 1) /\ Z.shiftr (Z.shiftl 1 s) 1 = 2 ^ (s - 1).
Proof.
  intros H. rewrite Z.shiftl_1_l. assert (E : 2 ^ s = 2 * 2 ^ (s - 1)) by (rewrite <- Z.pow_succ_r by lia; f_equal; lia). split; [exact E|].
  rewrite E, Z.shiftr_div_pow2 by lia. change (2 ^ 1) with 2. rewrite Z.mul_comm, Z.div_mul by lia. reflexivity.
Qed.
Lemma fft_body_eq S s th i : 1 <= s -> let h := 2 ^ (s - 1) in
  fft_body K S s th i = [Imul K (Lo th 0) (Sh 1 (w64 (Z.shiftl (i mod h) (S - s)))) (Sh 0 (lo h i + h)); Icopy K (Lo th 1) (Sh 0 (lo h i));
    Iadd K (Sh 0 (lo h i)) (Lo th 0) (Lo th 1); Isub K (Sh 0 (lo h i + h)) (Lo th 1) (Lo th 0)].
Proof. intros Hs h. unfold fft_body. destruct (shl_pow s Hs) as [E1 E2]. rewrite E2, E1. reflexivity. Qed.
Lemma fft_indep S s b e : 1 <= s -> iter_indep K (fft_body K S s) b e.
Proof.
  intros Hs i j th th' _ _ N Nt. rewrite !fft_body_eq by exact Hs. set (h := 2 ^ (s - 1)). assert (Hh : 0 < h) by (apply Z.pow_pos_nonneg; lia).
  destruct (lo_inj h i j Hh) as [I1 I2]. destruct (lo_inj h j i Hh) as [_ I3]. assert (I4 : lo h i <> lo h j) by (intros E; apply N, I1, E). clear I1.
  assert (I5 : lo h i + h <> lo h j + h) by lia. assert (I6 : lo h i + h <> lo h j) by lia. clear I3.
  intros x y Hx Hy. cbn [In] in Hx, Hy. destruct Hx as [<-|[<-|[<-|[<-|[]]]]], Hy as [<-|[<-|[<-|[<-|[]]]]]; unfold noconf; cbn [dst srcs Imul Iadd Isub Icopy In]; repeat split; try intros Q; repeat (destruct Q as [Q|Q]); try contradiction; congruence.
Qed.
Lemma fft_loop S s N m m' : 1 <= s -> 0 < N < 2 ^ 31 -> let h := 2 ^ (s - 1) in
  parfor K nT 0 N (fft_body K S s) m m' ->
  same_tables K m' m /\ (forall i, 0 <= i < N -> m' (Sh 0 (lo h i)) = radd (rmul (m (Sh 1 (w64 (Z.shiftl (i mod h) (S - s))))) (m (Sh 0 (lo h i + h)))) (m (Sh 0 (lo h i))) /\
    m' (Sh 0 (lo h i + h)) = rsub (m (Sh 0 (lo h i))) (rmul (m (Sh 1 (w64 (Z.shiftl (i mod h) (S - s))))) (m (Sh 0 (lo h i + h))))) /\
  (forall k, (forall i, 0 <= i < N -> k <> lo h i /\ k <> lo h i + h) -> m' (Sh 0 k) = m (Sh 0 k)).
Proof.
  intros Hs HN h H. assert (Hh : 0 < h) by (apply Z.pow_pos_nonneg; lia). apply parfor_seq in H; [|exact HT|lia|lia|apply fft_indep, Hs]. destruct H as (its & E1 & E2 & E3).
  assert (Hin : forall i, In i (map snd its) <-> 0 <= i < N). { intros i. rewrite E1, zrange_in. lia. }
  destruct (seq_ok K (fft_body K S s) (bcells h) (beff h (fun j => w64 (Z.shiftl j (S - s)))) (fun _ => True)) with (its := its) (m := m) as (T & C & O).
  - intros i j q _ _ [C1|C1] [C2|C2]; destruct (lo_inj h i j Hh) as [I1 I2]; destruct (lo_inj h j i Hh) as [_ I3]; try (apply I1; lia); exfalso; congruence.
  - intros i q m1 m2 _ Cq T Hc. unfold beff. rewrite (Hc (lo h i)) by (left; reflexivity). rewrite (Hc (lo h i + h)) by (right; reflexivity). rewrite (T 1%nat) by lia. reflexivity.
  - intros th i m1 _. rewrite fft_body_eq by exact Hs. fold h. cbn [prun fold_left]. rewrite isub, iadd, icopy, imul. unfold bcells, beff.
    assert (Nh : Sh 0 (lo h i + h) <> Sh 0 (lo h i)) by (intros E; injection E; lia). assert (NL : Lo th 0 <> Lo th 1) by discriminate.
    split.
    + intros a x Na. mread. reflexivity.
    + intros q. split.
      * intros [->| ->].
        -- rewrite Z.eqb_refl. mread. reflexivity.
        -- destruct (Z.eqb_spec (lo h i + h) (lo h i)); [lia|]. mread. reflexivity.
      * intros Nq. assert (Sh 0 q <> Sh 0 (lo h i)) by (intros E; injection E as E; apply Nq; auto). assert (Sh 0 q <> Sh 0 (lo h i + h)) by (intros E; injection E as E; apply Nq; auto). mread. reflexivity.
  - rewrite E1. apply zrange_nodup.
  - intros; exact I.
  - split; [intros a i Na; rewrite E3; apply T, Na|]. split.
    + intros i Hi. rewrite !E3. rewrite (C i (lo h i)) by (try apply Hin, Hi; left; reflexivity). rewrite (C i (lo h i + h)) by (try apply Hin, Hi; right; reflexivity).
      unfold beff. rewrite Z.eqb_refl. destruct (Z.eqb_spec (lo h i + h) (lo h i)); [lia|]. split; reflexivity.
    + intros k Hk. rewrite E3. apply O. intros i Hi [Q|Q]; apply Hin in Hi; destruct (Hk i Hi); congruence.
Qed.

(** final scaling of the inverse *)
Definition icells (n i c : Z) : Prop := c = i \/ c = n - i.
Definition ieff (n dp i : Z) (m : pmem K) (c : Z) : K := rmul (m (Sh 0 (n - c))) (m (Sh 2 dp)).
Lemma inv_indep n dp b e : 1 <= b -> 2 * e <= n -> iter_indep K (inv_body K n dp) b e.
Proof.
  intros Hb He i j th th' Hi Hj N Nt. assert (i <> n - j) by lia. assert (n - i <> j) by lia. assert (n - i <> n - j) by lia. assert (i <> n - i) by lia. assert (j <> n - j) by lia.
  intros x y Hx Hy. unfold inv_body in *. cbn [In] in Hx, Hy. destruct Hx as [<-|[<-|[<-|[]]]], Hy as [<-|[<-|[<-|[]]]]; unfold noconf; cbn [dst srcs Imul Icopy In]; repeat split; try intros Q; repeat (destruct Q as [Q|Q]); try contradiction; congruence.
Qed.
Lemma inv_loop n dp N m m' : 1 < N -> 2 * N <= n -> N < 2 ^ 31 -> parfor K nT 1 N (inv_body K n dp) m m' ->
  same_tables K m' m /\ (forall i, 1 <= i < N \/ 1 <= n - i < N -> m' (Sh 0 i) = rmul (m (Sh 0 (n - i))) (m (Sh 2 dp))) /\
  (forall i, ~ (1 <= i < N \/ 1 <= n - i < N) -> m' (Sh 0 i) = m (Sh 0 i)).
Proof.
  intros H1 H2 H3 H. apply parfor_seq in H; [|exact HT|lia|lia|apply inv_indep; lia]. destruct H as (its & E1 & E2 & E3).
  assert (Hin : forall i, In i (map snd its) <-> 1 <= i < N). { intros i. rewrite E1, zrange_in. lia. }
  destruct (seq_ok K (inv_body K n dp) (icells n) (ieff n dp) (fun i => 1 <= i < N)) with (its := its) (m := m) as (T & C & O).
  - intros i j q Hi Hj [C1|C1] [C2|C2]; lia.
  - intros i q m1 m2 Hi Cq T Hc. unfold ieff. rewrite (T 2%nat) by lia. rewrite (Hc (n - q)); [reflexivity|]. destruct Cq; [right|left]; lia.
  - intros th i m1 Hi. unfold inv_body. cbn [prun fold_left]. rewrite !imul, icopy. unfold icells, ieff.
    assert (Nh : Sh 0 (n - i) <> Sh 0 i) by (intros E; injection E; lia). split.
    + intros a x Na. mread. reflexivity.
    + intros q. split.
      * intros [->| ->].
        -- mread. reflexivity.
        -- replace (n - (n - i)) with i by lia. mread. reflexivity.
      * intros Nq. assert (Sh 0 q <> Sh 0 i) by (intros E; injection E as E; apply Nq; auto). assert (Sh 0 q <> Sh 0 (n - i)) by (intros E; injection E as E; apply Nq; auto). mread. reflexivity.
  - rewrite E1. apply zrange_nodup.
  - intros it Hit. apply Hin, in_map, Hit.
  - split; [intros a i Na; rewrite E3; apply T, Na|]. split.
    + intros i [Hi|Hi]; rewrite E3; [rewrite (C i i); [reflexivity|apply Hin, Hi|left; reflexivity]|]. rewrite (C (n - i) i); [reflexivity|apply Hin; lia|right; lia].
    + intros i Hi. rewrite E3. apply O. intros j Hj [Q|Q]; apply Hin in Hj; apply Hi; [left|right]; lia.
Qed.
End Loops.
