(** The results of MultiexpFacts2.v and MsmFacts.v restated over lists. *)
From Coq Require Import ZArith List Lia Bool Permutation.
From Verif Require Import Bytes BytesFacts Group GroupTac Naf NafFacts Multiexp MultiexpFacts MultiexpFacts2 Msm MsmFacts.
Import ListNotations.
Open Scope Z_scope.
Ltac Zify.zify_post_hook ::= idtac.

(** sum of k_i P_i over the pairs of two lists *)
Definition msum {A : abgroup} (ks : list Z) (Ps : list A) : A := gsum (map (fun kp => zmul (fst kp) (snd kp)) (combine ks Ps)).
(** n scalars of S bytes each *)
Definition scalars_ok (S : Z) (ks : list (list Z)) : Prop := Forall (fun s => bytes_ok s /\ Z.of_nat (length s) = S) ks.
Definition PZ {A : abgroup} (Ps : list A) (i : Z) : A := nth (Z.to_nat i) Ps gzero.

Lemma concat_length_S S ks : scalars_ok S ks -> Z.of_nat (length (concat ks)) = Z.of_nat (length ks) * S.
Proof. induction 1 as [|s ks [_ L] _ IH]; [reflexivity|]. cbn [concat length]. rewrite app_length. lia. Qed.
Lemma concat_bytes S ks : scalars_ok S ks -> bytes_ok (concat ks).
Proof. induction 1 as [|s ks [B _] _ IH]; [constructor|]. cbn [concat]. apply Forall_app. split; assumption. Qed.
Lemma skipn_concat S ks i : scalars_ok S ks -> (i < length ks)%nat -> 0 <= S ->
  firstn (Z.to_nat S) (skipn (Z.to_nat (Z.of_nat i * S)) (concat ks)) = nth i ks [].
Proof.
  intros H. revert i. induction H as [|s ks [_ L] _ IH]; intros i Hi HS; [cbn in Hi; lia|]. cbn [concat]. destruct i as [|i].
  - cbn [nth]. change (Z.to_nat (Z.of_nat 0 * S)) with 0%nat. cbn [skipn]. replace (Z.to_nat S) with (length s + 0)%nat by lia. rewrite firstn_app_2. cbn. apply app_nil_r.
  - cbn [nth]. cbn [length] in Hi. rewrite skipn_app. rewrite skipn_all2 by nia. cbn [app]. replace (Z.to_nat (Z.of_nat (Datatypes.S i) * S) - length s)%nat with (Z.to_nat (Z.of_nat i * S)) by nia. apply IH; lia.
Qed.
Lemma scalar_concat S ks i : scalars_ok S ks -> 0 <= i < Z.of_nat (length ks) -> 0 <= S -> scalar (concat ks) S i = le_val (nth (Z.to_nat i) ks []).
Proof. intros H Hi HS. unfold scalar. rewrite <- (skipn_concat S ks (Z.to_nat i) H) by lia. rewrite Z2Nat.id by lia. reflexivity. Qed.

Lemma Forall2_len {X Y} (R : X -> Y -> Prop) l l' : Forall2 R l l' -> length l = length l'.
Proof. induction 1; cbn; congruence. Qed.
Section L.
Context {A : abgroup}.
Lemma Forall2_repA {E} (r : E -> A -> Prop) l Ps : Forall2 r l Ps -> repA A E r (Z.of_nat (length l)) l (PZ Ps).
Proof.
  intros H. split; [reflexivity|]. intros i Hi. unfold aget, PZ. destruct (Z.ltb_spec i 0); [lia|]. assert (Hn : (Z.to_nat i < length l)%nat) by lia. clear Hi. generalize dependent (Z.to_nat i).
  induction H as [|e x l Ps He _ IH]; intros k Hk; [cbn in Hk; lia|]. destruct k as [|k]; cbn; [exists e; auto|]. apply IH. cbn in Hk. lia.
Qed.
Lemma zrange_succ k a : zrange (a + 1) k = map (fun i => i + 1) (zrange a k).
Proof. revert a. induction k as [|k IH]; intros a; [reflexivity|]. rewrite !zrange_S. cbn [map]. rewrite IH. reflexivity. Qed.
Lemma wsum_msum w (ks : list Z) (Ps : list A) : length ks = length Ps -> (forall i, 0 <= i < Z.of_nat (length ks) -> w i = nth (Z.to_nat i) ks 0) ->
  wsum A w (PZ Ps) (zrange 0 (length ks)) = msum ks Ps.
Proof.
  unfold wsum, msum. revert w Ps. induction ks as [|k ks IH]; intros w Ps L Hw; destruct Ps as [|p Ps]; try discriminate L; [reflexivity|].
  cbn [length]. rewrite zrange_S. cbn [map combine fst snd gsum fold_right]. f_equal.
  - rewrite Hw by (cbn [length]; lia). reflexivity.
  - change (fold_right gadd gzero) with (@gsum A). rewrite zrange_succ, map_map. rewrite <- (IH (fun i => w (i + 1)) Ps); [|cbn in L; lia|].
    + f_equal. apply map_ext_in. intros i Hi. apply zrange_in in Hi. unfold PZ. replace (Z.to_nat (i + 1)) with (Datatypes.S (Z.to_nat i)) by lia. reflexivity.
    + intros i Hi. rewrite Hw by (cbn [length]; lia). replace (Z.to_nat (i + 1)) with (Datatypes.S (Z.to_nat i)) by lia. reflexivity.
Qed.
End L.

(** representation of group elements by objects; the operations of the curve *)
Record point_ops (A : abgroup) (E : Type) (rep repB : E -> A -> Prop) (zero : E) (dbl : E -> E) (add addm subm : E -> E -> E) : Prop := {
  po_zero : rep zero gzero;
  po_dbl : forall e x, rep e x -> rep (dbl e) (gadd x x);
  po_add : forall e x e' y, rep e x -> rep e' y -> rep (add e e') (gadd x y);
  po_addm : forall e x b y, rep e x -> repB b y -> rep (addm e b) (gadd x y);
  po_subm : forall e x b y, rep e x -> repB b y -> rep (subm e b) (gadd x (gneg y))
}.
Record point_tests (A : abgroup) (E : Type) (rep repB : E -> A -> Prop) (cleared : E) (isz iszm : E -> bool) : Prop := {
  pt_cleared : rep cleared gzero;
  pt_isz : forall e x, rep e x -> isz e = true -> x = gzero;
  pt_iszm : forall b y, repB b y -> iszm b = true -> y = gzero
}.

(** a legal execution of the parallel loops of multiexp: every loop runs each
    of its iterations once, in any order, each on one of the nT threads *)
Definition ran {T} (f : T -> Z) (l : list T) (lo hi : Z) : Prop := Permutation (map f l) (zrange lo (Z.to_nat (hi - lo))).
Definition on_threads (nT : Z) (l : list (Z * Z)) : Prop := Forall (fun it => 0 <= snd it < nT) l.
Definition legal (n nT bits : Z) (sc : sched) : Prop := forall c : Z,
  ran fst (s_proc sc c) 0 n /\ on_threads nT (s_proc sc c) /\
  ran (fun i => i) (s_pack sc c) 0 (2 ^ bits) /\
  forall b, (2 <= b)%nat -> ran fst (s_red sc c b) 1 (2 ^ (Z.of_nat b - 1)) /\ on_threads nT (s_red sc c b).
Lemma legal_sched_ok n nT bits sc : legal n nT bits sc -> sched_ok n nT bits sc.
Proof.
  intros H c. destruct (H c) as (H1 & H2 & H3 & H4). unfold ran in *. rewrite Z.sub_0_r in *. rewrite map_id in H3. split; [exact H1|]. split; [exact H2|]. split; [exact H3|].
  intros b Hb. apply H4, Hb.
Qed.

Section Multi.
Context {A : abgroup} {E : Type}.
Variables (rep repB : E -> A -> Prop) (zero cleared : E) (dbl : E -> E) (add addm subm : E -> E -> E) (isz iszm : E -> bool).
Hypothesis O : point_ops A E rep repB zero dbl add addm subm.
Lemma multiexp_list skip sel ks bases Ps S nT sc : point_tests A E rep repB cleared isz iszm -> Forall2 repB bases Ps -> scalars_ok S ks -> length ks = length Ps ->
  8 <= S < 2 ^ 28 -> Z.of_nat (length ks) * S < 2 ^ 64 -> 1 <= nT < 2 ^ 48 ->
  (forall i, 0 <= i < Z.of_nat (length ks) -> skip i = Some (negb (sel i))) -> (length ks = 1%nat -> sel 0 = true) ->
  legal (Z.of_nat (length ks)) nT (bits_per_chunk (Z.of_nat (length ks))) sc ->
  exists r, multiexp_with E zero cleared dbl add addm subm isz iszm skip bases (concat ks) S (Z.of_nat (length ks)) nT sc = Some r /\
    rep r (msum (map (fun ik => if sel (fst ik) then le_val (snd ik) else 0) (combine (zrange 0 (length ks)) ks)) Ps).
Proof.
  intros T HB HK HL HS H64 HT Hsk H1 HC. pose proof (Forall2_len _ _ _ HB) as LB.
  destruct (multiexp_ok A E zero cleared dbl add addm subm isz iszm rep repB (po_zero _ _ _ _ _ _ _ _ _ O) (pt_cleared _ _ _ _ _ _ _ T) (po_dbl _ _ _ _ _ _ _ _ _ O) (po_add _ _ _ _ _ _ _ _ _ O)
    (po_addm _ _ _ _ _ _ _ _ _ O) (po_subm _ _ _ _ _ _ _ _ _ O) (pt_isz _ _ _ _ _ _ _ T) (pt_iszm _ _ _ _ _ _ _ T) bases (PZ Ps) (concat ks) S (Z.of_nat (length ks)) nT skip sel) with (sc := sc) as (r & E1 & R1); try assumption; try lia.
  - replace (length ks) with (length bases) by congruence. apply Forall2_repA, HB.
  - apply (concat_bytes S ks HK).
  - apply concat_length_S, HK.
  - intros X. apply H1. lia.
  - apply legal_sched_ok, HC.
  - exists r. split; [exact E1|]. replace (msum _ _) with (target A (PZ Ps) (concat ks) S (Z.of_nat (length ks)) sel); [exact R1|].
    unfold target. rewrite Nat2Z.id.
    assert (LZ : length (zrange 0 (length ks)) = length ks) by (unfold zrange; rewrite map_length, seq_length; reflexivity).
    set (ks' := map _ _). assert (L' : length ks' = length ks) by (unfold ks'; rewrite map_length, combine_length; lia).
    replace (zrange 0 (length ks)) with (zrange 0 (length ks')) by congruence. rewrite <- (wsum_msum (fun i => if sel i then scalar (concat ks) S i else 0) ks' Ps); [|congruence|].
    + unfold wsum. f_equal. apply map_ext. intros i. unfold P'. destruct (sel i); [reflexivity|]. rewrite zmul_zero. reflexivity.
    + intros i Hi. rewrite L' in Hi. unfold ks'. set (g := fun ik => _). rewrite (nth_indep _ 0 (g (-1, @nil Z))) by (unfold ks' in L'; fold g in L'; lia). rewrite map_nth.
      rewrite (combine_nth (zrange 0 (length ks)) ks (Z.to_nat i) (-1) [] LZ). unfold g. cbn [fst snd].
      assert (Ez : nth (Z.to_nat i) (zrange 0 (length ks)) (-1) = i).
      { unfold zrange. rewrite (nth_indep _ (-1) (0 + Z.of_nat 0)) by (rewrite map_length, seq_length; lia). rewrite (map_nth (fun k => 0 + Z.of_nat k)). rewrite seq_nth by lia. lia. }
      rewrite Ez. destruct (sel i); [|reflexivity]. apply scalar_concat; [exact HK|lia|lia].
Qed.
Lemma msum_all ks (Ps : list A) : msum (map (fun ik => if true then le_val (snd ik) else 0) (combine (zrange 0 (length ks)) ks)) Ps = msum (map le_val ks) Ps.
Proof.
  f_equal. rewrite <- (map_map (@snd Z (list Z)) le_val). f_equal. assert (LZ : length (zrange 0 (length ks)) = length ks) by (unfold zrange; rewrite map_length, seq_length; reflexivity).
  generalize dependent (zrange 0 (length ks)). intros l. revert ks. induction l as [|z l IH]; intros [|k ks] L; try discriminate L; [reflexivity|]. cbn. f_equal. apply IH. cbn in L. lia.
Qed.
(** bucket method *)
Definition top_carry (bits S v : Z) : Z :=
  let nC := (8 * S - 1) / bits + 1 in if (2 ^ (bits - 1) - 1) * (2 ^ (bits * nC) - 1) / (2 ^ bits - 1) <? v then 1 else 0.
Lemma run_list bits junkZ junkE ks bases Ps S nT sched1 sched2 : Forall2 repB bases Ps -> scalars_ok S ks -> length ks = length Ps ->
  8 <= S < 2 ^ 28 -> Z.of_nat (length ks) < 2 ^ 31 -> (2 <= length ks)%nat -> 1 <= bits <= 16 -> 1 <= nT < 2 ^ 48 ->
  let nC := (8 * S - 1) / bits + 1 in
  ran (fun i => i) sched1 0 (Z.of_nat (length ks)) -> ran fst sched2 0 nC -> on_threads nT sched2 ->
  exists r, run_with E zero dbl add addm subm bits junkZ junkE bases (concat ks) S (Z.of_nat (length ks)) nT sched1 sched2 = Some r /\
    rep r (msum (map (fun s => le_val s - top_carry bits S (le_val s) * 2 ^ (bits * nC)) ks) Ps).
Proof.
  intros HB HK HL HS H31 H2 Hb HT nC R1 R2 R3. pose proof (Forall2_len _ _ _ HB) as LB.
  assert (EC : calcChunkCount S bits = nC).
  { unfold calcChunkCount, nC. replace (8 * S) with (S * 8) by lia. rewrite (w64_small (S * 8)) by lia. rewrite (w64_small (S * 8 - 1)) by lia.
    apply w64_small. pose proof (Z.div_pos (S * 8 - 1) bits ltac:(lia) ltac:(lia)). pose proof (Z.div_le_upper_bound (S * 8 - 1) bits (S * 8 - 1) ltac:(lia) ltac:(nia)). lia. }
  unfold ran in R1, R2. rewrite map_id, Z.sub_0_r in R1. rewrite Z.sub_0_r in R2.
  destruct (run_with_ok A E zero dbl add addm subm rep repB (po_zero _ _ _ _ _ _ _ _ _ O) (po_dbl _ _ _ _ _ _ _ _ _ O) (po_add _ _ _ _ _ _ _ _ _ O)
    (po_addm _ _ _ _ _ _ _ _ _ O) (po_subm _ _ _ _ _ _ _ _ _ O) bases (PZ Ps) (concat ks) S (Z.of_nat (length ks)) nT bits) with (junkZ := junkZ) (junkE := junkE) (sched1 := sched1) (sched2 := sched2) as (r & E1 & Rr); try assumption; try lia.
  - replace (length ks) with (length bases) by congruence. apply Forall2_repA, HB.
  - apply (concat_bytes S ks HK).
  - apply concat_length_S, HK.
  - rewrite EC. exact R2.
  - exists r. split; [exact E1|]. replace (msum _ _) with (mtarget A (PZ Ps) (concat ks) S (Z.of_nat (length ks)) bits); [exact Rr|].
    unfold mtarget. rewrite Nat2Z.id. set (ks' := map _ _). assert (L' : length ks' = length ks) by (unfold ks'; apply map_length).
    rewrite <- L'. apply wsum_msum; [congruence|]. intros i Hi. rewrite L' in Hi. unfold ks'. set (g := fun s => _).
    rewrite (nth_indep _ 0 (g [])) by (rewrite map_length; lia). rewrite map_nth. unfold g, lost. rewrite scalar_concat by (try assumption; lia). set (v := le_val _). rewrite EC.
    f_equal. f_equal. pose proof (lost_carry (concat ks) S bits) as LC. unfold top_carry. fold nC.
    assert (NB : nC = Z.of_nat (Z.to_nat nC)). { unfold nC. pose proof (Z.div_pos (8 * S - 1) bits). lia. }
    assert (SM : smax bits (Z.to_nat nC) = (2 ^ (bits - 1) - 1) * (2 ^ (bits * nC) - 1) / (2 ^ bits - 1)).
    { pose proof (smax_formula bits ltac:(lia) (Z.to_nat nC)) as SF. rewrite <- NB in SF. rewrite (nB_2 bits) by lia. rewrite <- SF. rewrite Z.div_mul; [reflexivity|].
      pose proof (Z.pow_pos_nonneg 2 (bits - 1)). lia. }
    rewrite <- SM. specialize (LC (concat_bytes S ks HK) HS Hb i). rewrite EC, scalar_concat in LC by (try assumption; lia). fold v in LC.
    destruct (lost_carry01 (concat ks) S bits i) as [C|C]; rewrite C in *; destruct (Z.ltb_spec (smax bits (Z.to_nat nC)) v); try reflexivity; try lia.
Qed.
End Multi.
Lemma no_top_carry bits S v : 3 <= bits -> 8 <= S -> v < 2 ^ (8 * S - 2) -> top_carry bits S v = 0.
Proof.
  intros Hb HS Hv. unfold top_carry. set (nC := (8 * S - 1) / bits + 1).
  assert (N8 : 8 * S <= bits * nC).
  { unfold nC. pose proof (Z.div_mod (8 * S - 1) bits ltac:(lia)). pose proof (Z.mod_pos_bound (8 * S - 1) bits ltac:(lia)). lia. }
  destruct (Z.ltb_spec ((2 ^ (bits - 1) - 1) * (2 ^ (bits * nC) - 1) / (2 ^ bits - 1)) v) as [H|H]; [|reflexivity]. exfalso.
  assert (B : 2 ^ (8 * S - 2) <= 2 ^ (bits * nC - 2)) by (apply Z.pow_le_mono_r; lia).
  assert (E1 : 2 ^ (bits * nC) = 4 * 2 ^ (bits * nC - 2)) by (change 4 with (2 ^ 2); rewrite <- Z.pow_add_r by lia; f_equal; lia).
  assert (E2 : 2 ^ bits = 2 * 2 ^ (bits - 1)) by (rewrite <- Z.pow_succ_r by lia; f_equal; lia).
  assert (B2 : 2 ^ 2 <= 2 ^ (bits - 1)) by (apply Z.pow_le_mono_r; lia). change (2 ^ 2) with 4 in B2.
  assert (B3 : 2 ^ 2 <= 2 ^ (bits * nC - 2)) by (apply Z.pow_le_mono_r; lia). change (2 ^ 2) with 4 in B3.
  assert (L : 2 ^ (bits * nC - 2) <= (2 ^ (bits - 1) - 1) * (2 ^ (bits * nC) - 1) / (2 ^ bits - 1)).
  { apply Z.div_le_lower_bound; [lia|]. rewrite E1, E2. set (x := 2 ^ (bits * nC - 2)) in *. set (y := 2 ^ (bits - 1)) in *. nia. }
  lia.
Qed.
Lemma run_small : forall (A : abgroup) (E : Type) (rep repB : E -> A -> Prop) zero dbl add addm subm,
  point_ops A E rep repB zero dbl add addm subm ->
  forall junkZ junkE (ks : list (list Z)) (bases : list E) (Ps : list A) (S nT : Z) sched1 sched2,
  Forall2 repB bases Ps -> scalars_ok S ks -> length ks = length Ps -> 8 <= S < 2 ^ 28 -> Z.of_nat (length ks) < 2 ^ 31 -> 1 <= nT < 2 ^ 48 ->
  Forall (fun s => le_val s < 2 ^ (8 * S - 2)) ks ->
  ran (fun i => i) sched1 0 (Z.of_nat (length ks)) -> ran fst sched2 0 ((8 * S - 1) / calcBitsPerChunk (Z.of_nat (length ks)) S + 1) -> on_threads nT sched2 ->
  exists r, run E zero dbl add addm subm junkZ junkE bases (concat ks) S (Z.of_nat (length ks)) nT sched1 sched2 = Some r /\ rep r (msum (map le_val ks) Ps).
Proof.
  intros A E rep repB zero dbl add addm subm O junkZ junkE ks bases Ps S nT sched1 sched2 HB HK HL HS H31 HT HF R1 R2 R3. unfold run. set (bits := calcBitsPerChunk _ _) in *.
  pose proof (calcBits_bound (Z.of_nat (length ks)) S) as CB. fold bits in CB.
  destruct (Nat.le_gt_cases 2 (length ks)) as [H2|H2].
  - destruct (run_list rep repB zero dbl add addm subm O bits junkZ junkE ks bases Ps S nT sched1 sched2) as (r & E1 & Rr); auto; [lia|]. exists r. split; [exact E1|].
    replace (map le_val ks) with (map (fun s => le_val s - top_carry bits S (le_val s) * 2 ^ (bits * ((8 * S - 1) / bits + 1))) ks); [exact Rr|].
    apply map_ext_in. intros s Hs. rewrite Forall_forall in HF. rewrite no_top_carry; [lia|lia|lia|apply HF, Hs].
  - unfold run_with. destruct ks as [|s [|s' ks]]; [| |cbn in H2; lia].
    + exists zero. split; [reflexivity|]. apply (po_zero _ _ _ _ _ _ _ _ _ O).
    + destruct Ps as [|p [|p' Ps]]; try discriminate HL. inversion HB as [|b b' l l' Rb HB']; subst. inversion HB'; subst. cbn [length Z.of_nat Z.eqb].
      change (aget [b] 0) with (Some b). cbn [obind]. inversion HK as [|s0 ks0 [Bs Ls] _]; subst. cbn [concat]. rewrite app_nil_r. destruct (Z.ltb_spec (Z.of_nat (length s)) (Z.of_nat (length s))); [lia|].
      unfold w32. rewrite Z.mod_small by lia. rewrite Nat2Z.id, firstn_all.
      destruct (nafMul_spec A E zero dbl addm subm rep repB (po_zero _ _ _ _ _ _ _ _ _ O) (po_dbl _ _ _ _ _ _ _ _ _ O) (po_addm _ _ _ _ _ _ _ _ _ O) (po_subm _ _ _ _ _ _ _ _ _ O) 1%nat 0%nat s (fun _ => b) p Bs) as (m' & Em & R' & _); auto.
      { intros E2. rewrite E2 in HS. cbn [length] in HS. lia. } { lia. }
      change (Pos.to_nat 1) with 1%nat. rewrite Em. cbn [obind]. exists (m' 1%nat). split; [reflexivity|]. unfold msum. cbn [map combine fst snd gsum fold_right]. rewrite gadd_0_r. exact R'.
Qed.
