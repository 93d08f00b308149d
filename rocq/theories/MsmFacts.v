(** Facts about the model of MSM. *)
From Coq Require Import ZArith List Lia Bool Permutation.
From Verif Require Import Bytes BytesFacts Group GroupTac Naf NafFacts Multiexp MultiexpFacts MultiexpFacts2 Msm.
Import ListNotations.
Open Scope Z_scope.
Ltac Zify.zify_post_hook ::= idtac.

Lemma aput_spec {T} (l : list T) k x : 0 <= k < Z.of_nat (length l) ->
  exists l', aput l k x = Some l' /\ length l' = length l /\ forall j, aget l' j = if j =? k then Some x else aget l j.
Proof.
  intros H. destruct (lput_spec l (Z.to_nat k) x) as (l' & P & L & N); [lia|]. exists l'. unfold aput. destruct (Z.ltb_spec k 0); [lia|].
  split; [exact P|]. split; [exact L|]. intros j. unfold aget. destruct (Z.ltb_spec j 0), (Z.eqb_spec j k); try lia; try reflexivity.
  - subst j. rewrite N, Nat.eqb_refl. reflexivity.
  - rewrite N. destruct (Nat.eqb_spec (Z.to_nat j) (Z.to_nat k)); [lia|reflexivity].
Qed.
Lemma alloc_length {T} (junk : nat -> T) size : length (alloc junk size) = Z.to_nat size.
Proof. unfold alloc. rewrite map_length, seq_length. reflexivity. Qed.
Lemma s32_small x : - 2 ^ 31 <= x < 2 ^ 31 -> s32 x = x.
Proof.
  intros H. unfold s32. destruct (Z.lt_ge_cases x 0).
  - rewrite <- (Z_mod_plus_full x 1 (2 ^ 32)). rewrite Z.mod_small by lia. destruct (Z.ltb_spec (x + 1 * 2 ^ 32) (2 ^ 31)); lia.
  - rewrite Z.mod_small by lia. destruct (Z.ltb_spec x (2 ^ 31)); lia.
Qed.
Lemma w64_small x : 0 <= x < 2 ^ 64 -> w64 x = x. Proof. apply Z.mod_small. Qed.

Lemma getBucketIndex_ok scalars S n bits i c : bytes_ok scalars -> 8 <= S -> Z.of_nat (length scalars) = n * S -> n * S < 2 ^ 64 -> 8 * S < 2 ^ 63 -> 0 <= i < n ->
  1 <= bits <= 16 -> 0 <= c -> c * bits < 8 * S ->
  getBucketIndex scalars S bits i c = Some ((scalar scalars S i / 2 ^ (c * bits)) mod 2 ^ bits).
Proof.
  intros H HS L B1 B2 Hi Hb Hc Hcb. pose proof (getChunk_ok scalars S n bits i c H HS L B1 B2 Hi Hb Hc Hcb) as G.
  unfold getChunk in G. unfold getBucketIndex. set (st := w64 (c * bits)) in *. set (bs := if _ <? _ then _ else _) in *.
  set (eff := if w64 (S * 8) <? _ then _ else _) in *. destruct (load64 _ _) as [v|]; [|discriminate]. cbn [obind] in *.
  destruct (Z.leb_spec 64 (w64 (st - bs * 8))); [discriminate|]. cbn [orb] in *. destruct (Z.leb_spec 31 eff); [discriminate|].
  destruct (Z.leb_spec 64 eff); [lia|]. rewrite <- G. do 2 f_equal. rewrite Z.shiftl_1_l. apply w64_small.
  assert (0 <= eff) by (unfold eff; clearbody bs; destruct (w64 (S * 8) <? w64 (st + bits)); [apply Z.mod_pos_bound; lia|lia]).
  assert (0 < 2 ^ eff) by (apply Z.pow_pos_nonneg; lia). assert (2 ^ eff <= 2 ^ 31) by (apply Z.pow_le_mono_r; lia). lia.
Qed.

(** ** signed digits *)
Section Signed.
Variables (bits : Z) (d : nat -> Z).
Hypothesis Hbits : 1 <= bits.
Let nB := 2 ^ (bits - 1).
Hypothesis Hd : forall j, 0 <= d j < 2 * nB.
Fixpoint carry (k : nat) : Z := match k with O => 0 | S k => if nB <=? d k + carry k then 1 else 0 end.
Definition sdig (k : nat) : Z := if nB <=? d k + carry k then d k + carry k - 2 * nB else d k + carry k.
Lemma carry_01 k : carry k = 0 \/ carry k = 1.
Proof. destruct k; cbn; [left; reflexivity|]. destruct (_ <=? _); [right|left]; reflexivity. Qed.
Lemma nB_pos : 1 <= nB. Proof. unfold nB. pose proof (Z.pow_pos_nonneg 2 (bits - 1)). lia. Qed.
Lemma nB_2 : 2 ^ bits = 2 * nB.
Proof. unfold nB. replace bits with (Z.succ (bits - 1)) at 1 by lia. rewrite Z.pow_succ_r by lia. reflexivity. Qed.
Lemma sdig_bound k : - nB <= sdig k < nB.
Proof. unfold sdig. pose proof nB_pos. pose proof (Hd k). destruct (carry_01 k) as [-> | ->]; destruct (Z.leb_spec nB (d k + 0)), (Z.leb_spec nB (d k + 1)); lia. Qed.
Lemma pow_S k : 2 ^ (bits * Z.of_nat (S k)) = 2 ^ (bits * Z.of_nat k) * (2 * nB).
Proof. replace (bits * Z.of_nat (S k)) with (bits * Z.of_nat k + bits) by lia. rewrite Z.pow_add_r, nB_2 by lia. reflexivity. Qed.
Lemma sdig_sum k : digits_val bits sdig k = digits_val bits d k - carry k * 2 ^ (bits * Z.of_nat k).
Proof.
  induction k as [|k IH]; [reflexivity|]. cbn [digits_val]. rewrite IH, pow_S. unfold sdig. cbn [carry]. destruct (nB <=? d k + carry k); ring.
Qed.
(** the largest integer with k signed digits *)
Definition smax (k : nat) : Z := digits_val bits (fun _ => nB - 1) k.
Lemma digits_bound k : 0 <= digits_val bits d k < 2 ^ (bits * Z.of_nat k).
Proof.
  induction k as [|k IH]; [cbn; rewrite Z.mul_0_r; cbn; lia|]. cbn [digits_val]. rewrite pow_S. pose proof (Hd k). set (p := 2 ^ (bits * Z.of_nat k)) in *. nia.
Qed.
Lemma smax_nonneg k : 0 <= smax k.
Proof. unfold smax. induction k as [|k IH]; cbn [digits_val]; [lia|]. pose proof nB_pos. pose proof (Z.pow_nonneg 2 (bits * Z.of_nat k)). nia. Qed.
Lemma smax_lt k : smax k < 2 ^ (bits * Z.of_nat k).
Proof.
  unfold smax. induction k as [|k IH]; [cbn; rewrite Z.mul_0_r; cbn; lia|]. cbn [digits_val]. rewrite pow_S. pose proof nB_pos.
  set (p := 2 ^ (bits * Z.of_nat k)) in *. pose proof (smax_nonneg k). unfold smax in *. nia.
Qed.
Lemma carry_iff k : carry k = 1 <-> smax k < digits_val bits d k.
Proof.
  induction k as [|k IH]; [cbn; lia|]. pose proof (smax_lt k) as SL. unfold smax in *. cbn [digits_val carry]. pose proof (Hd k) as Dk. pose proof (digits_bound k) as DB.
  pose proof (smax_nonneg k) as S0. unfold smax in S0.
  set (p := 2 ^ (bits * Z.of_nat k)) in *. set (v := digits_val bits d k) in *. set (m := digits_val bits (fun _ => nB - 1) k) in *. pose proof nB_pos.
  destruct (carry_01 k) as [C|C]; rewrite C in *; destruct (Z.leb_spec nB (d k + 0)) as [L|L]; destruct (Z.leb_spec nB (d k + 1)) as [L'|L']; try lia.
  - assert (nB * p <= d k * p) by (apply Z.mul_le_mono_nonneg_r; lia). lia.
  - assert (d k * p <= (nB - 1) * p) by (apply Z.mul_le_mono_nonneg_r; lia). lia.
  - assert (d k * p <= (nB - 1) * p) by (apply Z.mul_le_mono_nonneg_r; lia). lia.
  - assert ((nB - 1) * p <= d k * p) by (apply Z.mul_le_mono_nonneg_r; lia). lia.
  - assert ((nB - 1) * p <= d k * p) by (apply Z.mul_le_mono_nonneg_r; lia). lia.
  - assert (d k * p <= (nB - 2) * p) by (apply Z.mul_le_mono_nonneg_r; lia). lia.
Qed.
Lemma smax_formula k : smax k * (2 * nB - 1) = (nB - 1) * (2 ^ (bits * Z.of_nat k) - 1).
Proof. unfold smax. induction k as [|k IH]; [cbn; rewrite Z.mul_0_r; cbn; ring|]. cbn [digits_val]. rewrite pow_S, Z.mul_add_distr_r, IH. ring. Qed.
End Signed.
Lemma calcBits_bound n S : 3 <= calcBitsPerChunk n S <= 16.
Proof.
  unfold calcBitsPerChunk. assert (G : forall l st, (forall k, In k l -> 3 <= k <= 16) -> 3 <= fst st <= 16 -> 3 <= fst (fold_left (cb_step n S) l st) <= 16).
  { induction l as [|k l IH]; intros st Hl Hs; [exact Hs|]. cbn [fold_left]. apply IH; [intros; apply Hl; right; assumption|].
    unfold cb_step. destruct st as [b m]. cbn [fst] in Hs. destruct (_ <? _); cbn [fst]; [apply Hl; left; reflexivity|exact Hs]. }
  apply G; [intros k Hk; apply zrange_in in Hk; lia|cbn; lia].
Qed.

Lemma ofold_inv {X St} (f : X -> St -> option St) (I : list X -> St -> Prop) (l : list X) (s : St) :
  I [] s -> (forall x d s, In x l -> I d s -> exists s', f x s = Some s' /\ I (d ++ [x]) s') -> exists s', ofold f l s = Some s' /\ I l s'.
Proof.
  intros H0 Hf. assert (G : forall l' d s, (forall x, In x l' -> In x l) -> I d s -> exists s', ofold f l' s = Some s' /\ I (d ++ l') s').
  { induction l' as [|x l' IH]; intros d t Hl Ht; [exists t; rewrite app_nil_r; auto|]. cbn [ofold].
    destruct (Hf x d t (Hl x (or_introl eq_refl)) Ht) as (t' & -> & Ht'). cbn [obind].
    destruct (IH (d ++ [x]) t') as (t2 & -> & H2); [intros; apply Hl; right; assumption|exact Ht'|]. rewrite <- app_assoc in H2. exists t2. split; [reflexivity|exact H2]. }
  apply (G l [] s); auto.
Qed.
Lemma ofold_range {St} (f : Z -> St -> option St) (I : Z -> St -> Prop) (k : nat) a (s : St) :
  I a s -> (forall i s, a <= i < a + Z.of_nat k -> I i s -> exists s', f i s = Some s' /\ I (i + 1) s') -> exists s', ofold f (zrange a k) s = Some s' /\ I (a + Z.of_nat k) s'.
Proof.
  revert a s. induction k as [|k IH]; intros a s H0 Hf.
  - exists s. split; [reflexivity|]. rewrite Z.add_0_r. exact H0.
  - rewrite zrange_S. cbn [ofold]. destruct (Hf a s ltac:(lia) H0) as (t & -> & Ht). cbn [obind].
    destruct (IH (a + 1) t Ht) as (t' & -> & Ht'); [intros; apply Hf; [lia|assumption]|]. exists t'. split; [reflexivity|].
    replace (a + Z.of_nat (S k)) with (a + 1 + Z.of_nat k) by lia. exact Ht'.
Qed.

Section Run.
Variable A : abgroup.
Variable E : Type.
Variables (zero : E) (dbl : E -> E) (add addm subm : E -> E -> E).
Variables rep repB : E -> A -> Prop.
Hypothesis rep_zero : rep zero gzero.
Hypothesis rep_dbl : forall e x, rep e x -> rep (dbl e) (gadd x x).
Hypothesis rep_add : forall e x e' y, rep e x -> rep e' y -> rep (add e e') (gadd x y).
Hypothesis rep_addm : forall e x b y, rep e x -> repB b y -> rep (addm e b) (gadd x y).
Hypothesis rep_subm : forall e x b y, rep e x -> repB b y -> rep (subm e b) (gadd x (gneg y)).
Variables (bases : list E) (P : Z -> A) (scalars : list Z) (S n nT bits : Z).
Hypothesis H_bases : repA A E repB n bases P.
Hypothesis H_bytes : bytes_ok scalars.
Hypothesis H_S : 8 <= S < 2 ^ 28.
Hypothesis H_len : Z.of_nat (length scalars) = n * S.
Hypothesis H_n : 0 <= n < 2 ^ 31.
Hypothesis H_bits : 1 <= bits <= 16.
Hypothesis H_nT : 1 <= nT < 2 ^ 48.
Let nB := 2 ^ (bits - 1).
Let nC := calcChunkCount S bits.
Let k := Z.to_nat nC.
Definition dg (i : Z) (j : nat) : Z := (scalar scalars S i / 2 ^ (Z.of_nat j * bits)) mod 2 ^ bits.
Definition sd (i j : Z) : Z := sdig bits (dg i) (Z.to_nat j).
Definition co (i : Z) : Z := carry bits (dg i) k.

Lemma nC_def : 1 <= nC < 2 ^ 31 /\ (nC - 1) * bits < 8 * S <= nC * bits.
Proof.
  unfold nC, calcChunkCount. rewrite (w64_small (S * 8)) by lia. rewrite (w64_small (S * 8 - 1)) by lia.
  pose proof (Z.div_mod (S * 8 - 1) bits ltac:(lia)) as DM. pose proof (Z.mod_pos_bound (S * 8 - 1) bits ltac:(lia)) as MB.
  set (q := (S * 8 - 1) / bits) in *. assert (Hq : 0 <= q) by (apply Z.div_pos; lia). assert (Hq2 : q <= S * 8 - 1) by nia.
  rewrite (w64_small (q + 1)) by lia. split; [lia|]. lia.
Qed.
Lemma nB_b : 1 <= nB <= 2 ^ 15.
Proof. unfold nB. pose proof (Z.pow_pos_nonneg 2 (bits - 1)). split; [lia|]. apply Z.pow_le_mono_r; lia. Qed.
Lemma dg_b i j : 0 <= dg i j < 2 * nB.
Proof. unfold dg, nB. rewrite <- (nB_2 bits) by lia. apply Z.mod_pos_bound, Z.pow_pos_nonneg; lia. Qed.
Lemma sd_b i j : - nB <= sd i j < nB.
Proof. unfold sd. apply sdig_bound; [lia|]. intros. apply dg_b. Qed.
Lemma bucketCount : calcBucketCount bits = nB.
Proof. unfold calcBucketCount. apply Z.shiftl_1_l. Qed.
Lemma nS_64 : n * S < 2 ^ 64. Proof. nia. Qed.
Lemma pos_b i j : 0 <= i < n -> 0 <= j < nC -> 0 <= i * nC + j < nC * n /\ nC * n < 2 ^ 64.
Proof. intros Hi Hj. destruct nC_def as [B _]. nia. Qed.

Lemma slice_iter_ok i sliced : 0 <= i < n -> Z.of_nat (length sliced) = nC * n ->
  exists sl, slice_iter scalars S bits nC nB i sliced = Some sl /\ length sl = length sliced /\
    (forall j, 0 <= j < nC -> aget sl (i * nC + j) = Some (sd i j)) /\ (forall p, ~ (i * nC <= p < i * nC + nC) -> aget sl p = aget sliced p).
Proof.
  intros Hi L. unfold slice_iter. destruct nC_def as (B & C1 & C2). pose proof nB_b as NB.
  destruct (ofold_range (slice_step scalars S bits nC nB i)
    (fun j st => fst st = carry bits (dg i) (Z.to_nat j) /\ length (snd st) = length sliced /\
      (forall j', 0 <= j' < j -> aget (snd st) (i * nC + j') = Some (sd i j')) /\ (forall p, ~ (i * nC <= p < i * nC + nC) -> aget (snd st) p = aget sliced p))
    (Z.to_nat nC) 0 (0, sliced)) as ([c sl] & -> & I).
  - cbn [fst snd]. split; [reflexivity|]. split; [reflexivity|]. split; [intros; lia|auto].
  - intros j [c sl] Hj (I1 & I2 & I3 & I4). cbn [fst snd] in *. rewrite Z2Nat.id in Hj by lia. unfold slice_step.
    rewrite (getBucketIndex_ok scalars S n bits i j) by (try assumption; try lia; try nia; apply nS_64). cbn [obind].
    assert (Hv : (scalar scalars S i / 2 ^ (j * bits)) mod 2 ^ bits = dg i (Z.to_nat j)) by (unfold dg; rewrite Z2Nat.id by lia; reflexivity).
    rewrite Hv. pose proof (dg_b i (Z.to_nat j)) as DB. pose proof (carry_01 bits (dg i) (Z.to_nat j)) as CB. rewrite <- I1 in CB.
    rewrite (s32_small (dg i (Z.to_nat j) + c)) by lia. rewrite (w64_small (dg i (Z.to_nat j) + c)) by lia.
    destruct (pos_b i j Hi ltac:(lia)) as [PB P64]. rewrite (w64_small (i * nC + j)) by lia.
    assert (T : Z.to_nat (j + 1) = Datatypes.S (Z.to_nat j)) by lia.
    assert (Hsd : sd i j = if nB <=? dg i (Z.to_nat j) + c then dg i (Z.to_nat j) + c - 2 * nB else dg i (Z.to_nat j) + c) by (unfold sd, sdig; rewrite <- I1; reflexivity).
    assert (Hca : carry bits (dg i) (Z.to_nat (j + 1)) = if nB <=? dg i (Z.to_nat j) + c then 1 else 0) by (rewrite T; cbn [carry]; rewrite <- I1; reflexivity).
    assert (Q : forall v, v = sd i j -> exists sl', aput sl (i * nC + j) v = Some sl' /\ length sl' = length sliced /\
      (forall j', 0 <= j' < j + 1 -> aget sl' (i * nC + j') = Some (sd i j')) /\ (forall p, ~ (i * nC <= p < i * nC + nC) -> aget sl' p = aget sliced p)).
    { intros v ->. destruct (aput_spec sl (i * nC + j) (sd i j)) as (sl' & E1 & E2 & E3); [lia|]. exists sl'. split; [exact E1|]. split; [lia|]. split.
      - intros j' Hj'. rewrite E3. destruct (Z.eqb_spec (i * nC + j') (i * nC + j)) as [Eq|Nq]; [replace j' with j by lia; reflexivity|apply I3; lia].
      - intros p Hp. rewrite E3. destruct (Z.eqb_spec p (i * nC + j)); [lia|apply I4, Hp]. }
    destruct (nB <=? dg i (Z.to_nat j) + c).
    + rewrite s32_small by lia. destruct (Q (dg i (Z.to_nat j) + c - nB * 2) ltac:(lia)) as (sl' & -> & Q2). cbn [obind]. exists (1, sl'). cbn [fst snd].
      split; [reflexivity|]. split; [auto|exact Q2].
    + destruct (Q (dg i (Z.to_nat j) + c) ltac:(lia)) as (sl' & -> & Q2). cbn [obind]. exists (0, sl'). cbn [fst snd].
      split; [reflexivity|]. split; [auto|exact Q2].
  - cbn [obind fst snd] in *. destruct I as (I1 & I2 & I3 & I4). exists sl. split; [reflexivity|]. split; [exact I2|]. split; [|exact I4]. intros j Hj. apply I3. lia.
Qed.
Definition sliced_ok (sl : list Z) : Prop := forall i j, 0 <= i < n -> 0 <= j < nC -> aget sl (i * nC + j) = Some (sd i j).
Lemma slices_ok sched sliced : Permutation sched (zrange 0 (Z.to_nat n)) -> Z.of_nat (length sliced) = nC * n ->
  exists sl, ofold (slice_iter scalars S bits nC nB) sched sliced = Some sl /\ sliced_ok sl.
Proof.
  intros HP L. destruct nC_def as (B & _).
  destruct (ofold_inv (slice_iter scalars S bits nC nB)
    (fun d sl => length sl = length sliced /\ forall i j, In i d -> In i sched -> 0 <= j < nC -> aget sl (i * nC + j) = Some (sd i j)) sched sliced) as (sl & -> & _ & I).
  - split; [reflexivity|intros i j []].
  - intros x d sl Hx (I1 & I2). assert (Hin : In x (zrange 0 (Z.to_nat n))) by (eapply Permutation_in; eassumption). apply zrange_in in Hin.
    destruct (slice_iter_ok x sl) as (sl' & -> & Q1 & Q2 & Q3); [lia|lia|]. exists sl'. split; [reflexivity|]. split; [lia|].
    intros i j Hi Hs Hj. destruct (Z.eq_dec i x) as [->|Nx]; [apply Q2, Hj|]. rewrite Q3 by nia. apply in_app_or in Hi. destruct Hi as [Hi|[->|[]]]; [|contradiction]. apply I2; assumption.
  - exists sl. split; [reflexivity|]. intros i j Hi Hj. assert (In i sched) by (eapply Permutation_in; [apply Permutation_sym; exact HP|apply zrange_in; lia]). apply I; assumption.
Qed.

(** a row of buckets *)
Definition rowrep (base : Z) (bm : list E) (f : Z -> A) : Prop :=
  Z.of_nat (length bm) = nT * nB /\ forall i, 0 <= i < nB -> exists e, aget bm (base + i) = Some e /\ rep e (f i).
Lemma row_put base bm f i p e : rowrep base bm f -> 0 <= base -> base + nB <= nT * nB -> 0 <= i < nB -> rep e (gadd (f i) p) ->
  exists bm', aput bm (base + i) e = Some bm' /\ rowrep base bm' (fadd A f i p).
Proof.
  intros [L H] Hb Hb2 Hi He. destruct (aput_spec bm (base + i) e) as (bm' & E1 & E2 & E3); [lia|]. exists bm'. split; [exact E1|]. split; [lia|].
  intros j Hj. rewrite E3. destruct (Z.eqb_spec (base + j) (base + i)) as [Eq|Nq].
  - exists e. split; [reflexivity|]. replace j with i by lia. rewrite fadd_same. exact He.
  - rewrite fadd_other by lia. apply H, Hj.
Qed.
Lemma clear_ok base bm : 0 <= base -> base + nB <= nT * nB -> Z.of_nat (length bm) = nT * nB ->
  exists bm', ofold (clear_step E zero base) (zrange 0 (Z.to_nat nB)) bm = Some bm' /\ rowrep base bm' (fun _ => gzero).
Proof.
  intros Hb Hb2 L. pose proof nB_b as NB.
  destruct (ofold_range (clear_step E zero base) (fun i b => Z.of_nat (length b) = nT * nB /\ forall j, 0 <= j < i -> aget b (base + j) = Some zero) (Z.to_nat nB) 0 bm) as (bm' & -> & I1 & I2).
  - split; [exact L|intros; lia].
  - intros i b Hi [I1 I2]. unfold clear_step. destruct (aput_spec b (base + i) zero) as (b' & -> & E2 & E3); [lia|]. exists b'. split; [reflexivity|]. split; [lia|].
    intros j Hj. rewrite E3. destruct (Z.eqb_spec (base + j) (base + i)); [reflexivity|apply I2; lia].
  - exists bm'. split; [reflexivity|]. split; [exact I1|]. intros i Hi. exists zero. split; [apply I2; lia|exact rep_zero].
Qed.
Definition BW (f : Z -> A) : A := wsum A (fun i => i + 1) f (zrange 0 (Z.to_nat nB)).
Lemma BW_fadd f i p : 0 <= i < nB -> BW (fadd A f i p) = gadd (BW f) (zmul (i + 1) p).
Proof. intros H. unfold BW. rewrite wsum_in; [reflexivity|apply zrange_nodup|apply zrange_in; lia]. Qed.
Lemma points_ok sl j base bm f : sliced_ok sl -> 0 <= j < nC -> 0 <= base -> base + nB <= nT * nB -> rowrep base bm f ->
  exists bm' f', ofold (point_step E addm subm bases sl nC j base) (zrange 0 (Z.to_nat n)) bm = Some bm' /\ rowrep base bm' f' /\
    BW f' = gadd (BW f) (wsum A (fun i => sd i j) P (zrange 0 (Z.to_nat n))).
Proof.
  intros HS Hj Hb Hb2 R.
  destruct (ofold_range (point_step E addm subm bases sl nC j base) (fun i b => exists f', rowrep base b f' /\ BW f' = gadd (BW f) (wsum A (fun i => sd i j) P (zrange 0 (Z.to_nat i)))) (Z.to_nat n) 0 bm) as (bm' & -> & f' & R' & W').
  - exists f. split; [exact R|]. cbn. unfold wsum. cbn. rewrite gadd_0_r. reflexivity.
  - intros i b Hi (f' & R' & W'). rewrite Z2Nat.id, Z.add_0_l in Hi by lia. unfold point_step. destruct (pos_b i j Hi Hj) as [PB P64]. rewrite (w64_small (i * nC + j)) by lia.
    rewrite HS by assumption. cbn [obind]. pose proof (sd_b i j) as SB.
    assert (ST : wsum A (fun i => sd i j) P (zrange 0 (Z.to_nat (i + 1))) = gadd (wsum A (fun i => sd i j) P (zrange 0 (Z.to_nat i))) (zmul (sd i j) (P i))).
    { replace (Z.to_nat (i + 1)) with (Z.to_nat i + 1)%nat by lia. rewrite zrange_app, wsum_app. f_equal. rewrite Z.add_0_l, Z2Nat.id by lia. rewrite zrange_S.
      change (zrange (i + 1) 0) with (@nil Z). rewrite wsum_cons. unfold wsum. cbn [map gsum fold_right]. apply gadd_0_r. }
    destruct (proj2 H_bases i Hi) as (p & Ep & Rp). rewrite Ep. destruct (Z.ltb_spec 0 (sd i j)) as [Pos|NPos].
    + destruct (proj2 R' (sd i j - 1) ltac:(lia)) as (a & -> & Ra). cbn [obind].
      destruct (row_put base b f' (sd i j - 1) (P i) (addm a p) R' Hb Hb2 ltac:(lia) ltac:(apply rep_addm; assumption)) as (b' & -> & Rb'). exists b'. split; [reflexivity|].
      exists (fadd A f' (sd i j - 1) (P i)). split; [exact Rb'|]. rewrite BW_fadd, W', ST by lia. replace (sd i j - 1 + 1) with (sd i j) by lia. symmetry. apply gadd_assoc.
    + destruct (Z.ltb_spec (sd i j) 0) as [Neg|NNeg].
      * destruct (proj2 R' (- sd i j - 1) ltac:(lia)) as (a & -> & Ra). cbn [obind].
        destruct (row_put base b f' (- sd i j - 1) (gneg (P i)) (subm a p) R' Hb Hb2 ltac:(lia) ltac:(apply rep_subm; assumption)) as (b' & -> & Rb'). exists b'. split; [reflexivity|].
        exists (fadd A f' (- sd i j - 1) (gneg (P i))). split; [exact Rb'|]. rewrite BW_fadd, W', ST by lia. agroup.
      * exists b. split; [reflexivity|]. exists f'. split; [exact R'|]. rewrite W', ST. replace (sd i j) with 0 by lia. agroup.
  - exists bm', f'. split; [reflexivity|]. split; [exact R'|]. rewrite Z.add_0_l, Z2Nat.id in W' by lia. exact W'.
Qed.
(** the running sums *)
Lemma sum_loop_ok base bm f : rowrep base bm f -> forall m t tmp x y, Z.of_nat m <= nB -> rep t x -> rep tmp y ->
  exists r, sum_loop E add bm base m t tmp = Some r /\ rep r (gadd x (gadd (zmul (Z.of_nat m) y) (wsum A (fun i => i + 1) f (zrange 0 m)))).
Proof.
  intros R. induction m as [|m IH]; intros t tmp x y Hm Rt Rm; cbn [sum_loop].
  - exists t. split; [reflexivity|]. unfold wsum. cbn. rewrite gadd_0_r, gadd_0_r. exact Rt.
  - destruct (proj2 R (Z.of_nat m) ltac:(lia)) as (b & -> & Rb). cbn [obind].
    destruct (IH (add t (add tmp b)) (add tmp b) (gadd x (gadd y (f (Z.of_nat m)))) (gadd y (f (Z.of_nat m)))) as (r & Er & Rr); [lia|auto|auto|]. exists r. split; [exact Er|].
    replace (gadd x _) with (gadd (gadd x (gadd y (f (Z.of_nat m)))) (gadd (zmul (Z.of_nat m) (gadd y (f (Z.of_nat m)))) (wsum A (fun i => i + 1) f (zrange 0 m)))); [exact Rr|].
    replace (Datatypes.S m) with (m + 1)%nat by lia. rewrite zrange_app, wsum_app. rewrite Z.add_0_l, zrange_S. change (zrange (Z.of_nat m + 1) 0) with (@nil Z).
    rewrite wsum_cons. rewrite Nat2Z.inj_add. set (w := wsum A _ f _). change (wsum A (fun i => i + 1) f []) with (@gzero A). agroup.
Qed.
Definition CD (j : Z) : A := wsum A (fun i => sd i j) P (zrange 0 (Z.to_nat n)).
Lemma chunk_iter_ok sl j th bm chunks : sliced_ok sl -> 0 <= j < nC -> 0 <= th < nT -> Z.of_nat (length bm) = nT * nB -> Z.of_nat (length chunks) = nC ->
  exists bm' chunks' e, chunk_iter E zero add addm subm bases sl nC nB n (j, th) (bm, chunks) = Some (bm', chunks') /\ Z.of_nat (length bm') = nT * nB /\ length chunks' = length chunks /\
    rep e (CD j) /\ forall i, aget chunks' i = if i =? j then Some e else aget chunks i.
Proof.
  intros HS Hj Hth L LC. pose proof nB_b as NB. unfold chunk_iter. assert (Hb : 0 <= th * nB /\ th * nB + nB <= nT * nB /\ nT * nB < 2 ^ 64) by nia.
  rewrite (w64_small (th * nB)) by lia. destruct Hb as (Hb1 & Hb2 & Hb3).
  destruct (clear_ok (th * nB) bm Hb1 Hb2 L) as (b1 & -> & R1). cbn [obind].
  destruct (points_ok sl j (th * nB) b1 _ HS Hj Hb1 Hb2 R1) as (b2 & f2 & -> & R2 & W2). cbn [obind].
  destruct (proj2 R2 (nB - 1) ltac:(lia)) as (t & -> & Rt). cbn [obind]. rewrite s32_small by lia.
  destruct (sum_loop_ok _ _ _ R2 (Z.to_nat (nB - 2 + 1)) t t _ _ ltac:(lia) Rt Rt) as (r & -> & Rr). cbn [obind].
  destruct (aput_spec chunks j r) as (c' & -> & C2 & C3); [lia|]. cbn [obind]. exists b2, c', r. split; [reflexivity|]. split; [apply (proj1 R2)|]. split; [exact C2|]. split; [|exact C3].
  replace (CD j) with (BW f2).
  - unfold BW. replace (Z.to_nat nB) with (Z.to_nat (nB - 2 + 1) + 1)%nat by lia. rewrite zrange_app, wsum_app. rewrite Z.add_0_l, zrange_S.
    rewrite Z2Nat.id in * by lia. replace (nB - 2 + 1) with (nB - 1) in * by lia. change (zrange (nB - 1 + 1) 0) with (@nil Z). rewrite wsum_cons.
    change (wsum A (fun i => i + 1) f2 []) with (@gzero A). set (w := wsum A (fun i => i + 1) f2 (zrange 0 _)) in Rr |- *.
    replace (gadd w _) with (gadd (f2 (nB - 1)) (gadd (zmul (nB - 1) (f2 (nB - 1))) w)); [exact Rr|]. agroup.
  - rewrite W2. unfold BW at 1. rewrite wsum_zero by auto. apply gadd_0_l.
Qed.
Lemma chunks_ok' sl sched bm chunks : sliced_ok sl -> Permutation (map fst sched) (zrange 0 (Z.to_nat nC)) -> Forall (fun it => 0 <= snd it < nT) sched ->
  Z.of_nat (length bm) = nT * nB -> Z.of_nat (length chunks) = nC ->
  exists bm' chunks', ofold (chunk_iter E zero add addm subm bases sl nC nB n) sched (bm, chunks) = Some (bm', chunks') /\ repA A E rep nC chunks' CD.
Proof.
  intros HS HP HF L LC. destruct nC_def as (B & _).
  destruct (ofold_inv (chunk_iter E zero add addm subm bases sl nC nB n)
    (fun d st => Z.of_nat (length (fst st)) = nT * nB /\ Z.of_nat (length (snd st)) = nC /\ forall j, In j (map fst d) -> exists e, aget (snd st) j = Some e /\ rep e (CD j)) sched (bm, chunks)) as ([bm' c'] & -> & I1 & I2 & I3).
  - cbn [fst snd]. split; [exact L|]. split; [exact LC|intros j []].
  - intros [j th] d [b c] Hx (I1 & I2 & I3). cbn [fst snd] in *.
    assert (Hin : In j (zrange 0 (Z.to_nat nC))) by (eapply Permutation_in; [exact HP|apply (in_map fst _ (j, th)), Hx]). apply zrange_in in Hin.
    rewrite Forall_forall in HF. specialize (HF _ Hx). cbn [snd] in HF.
    destruct (chunk_iter_ok sl j th b c HS ltac:(lia) HF I1 I2) as (b' & c' & e & -> & Q1 & Q2 & Q3 & Q4). exists (b', c'). split; [reflexivity|]. cbn [fst snd]. split; [exact Q1|]. split; [lia|].
    intros i Hi. rewrite Q4. destruct (Z.eqb_spec i j) as [->|Nj]; [exists e; auto|]. rewrite map_app in Hi. apply in_app_or in Hi. destruct Hi as [Hi|[Hi|[]]]; [apply I3, Hi|cbn in Hi; congruence].
  - exists bm', c'. split; [reflexivity|]. split; [exact I2|]. intros i Hi. apply I3. eapply Permutation_in; [apply Permutation_sym; exact HP|]. apply zrange_in. lia.
Qed.
(** what is computed: the carry out of the last chunk is lost *)
Definition lost (i : Z) : Z := scalar scalars S i - co i * 2 ^ (bits * nC).
Definition mtarget : A := wsum A lost P (zrange 0 (Z.to_nat n)).
Lemma dg_val i : digits_val bits (dg i) k = scalar scalars S i.
Proof.
  unfold dg. pose proof (scalar_bound scalars S i H_bytes ltac:(lia)) as SB. destruct nC_def as (B & C1 & C2). rewrite digits_sum by lia. apply Z.mod_small.
  split; [lia|]. eapply Z.lt_le_trans; [apply SB|]. apply Z.pow_le_mono_r; [lia|]. unfold k. lia.
Qed.
Lemma hsum_mtarget : hsum A bits CD k = mtarget.
Proof.
  unfold hsum, mtarget, CD, wsum.
  rewrite (map_ext (fun j => zmul (2 ^ (bits * j)) (gsum (map (fun i => zmul (sd i j) (P i)) (zrange 0 (Z.to_nat n)))))
    (fun j => gsum (map (fun i => zmul (2 ^ (bits * j) * sd i j) (P i)) (zrange 0 (Z.to_nat n))))).
  2:{ intros j. rewrite <- gsum_zmul, map_map. f_equal. apply map_ext. intros i. apply zmul_zmul. }
  rewrite gsum_swap. f_equal. apply map_ext. intros i.
  assert (G : forall m, gsum (map (fun j => zmul (2 ^ (bits * j) * sd i j) (P i)) (zrange 0 m)) = zmul (digits_val bits (sdig bits (dg i)) m) (P i)).
  { induction m as [|m IH]; [reflexivity|]. replace (Datatypes.S m) with (m + 1)%nat at 1 by lia. rewrite zrange_app, map_app, gsum_app, IH. cbn [digits_val].
    rewrite zmul_add. f_equal. rewrite Z.add_0_l, zrange_S. change (zrange (Z.of_nat m + 1) 0) with (@nil Z). cbn [map gsum fold_right]. rewrite gadd_0_r. f_equal.
    unfold sd. rewrite Nat2Z.id. lia. }
  rewrite G. f_equal. rewrite sdig_sum by lia. rewrite dg_val. unfold lost, co. destruct nC_def as (B & _). unfold k. rewrite Z2Nat.id by lia. reflexivity.
Qed.
Lemma run_with_ok junkZ junkE sched1 sched2 : 2 <= n -> Permutation sched1 (zrange 0 (Z.to_nat n)) ->
  Permutation (map fst sched2) (zrange 0 (Z.to_nat nC)) -> Forall (fun it => 0 <= snd it < nT) sched2 ->
  exists r, run_with E zero dbl add addm subm bits junkZ junkE bases scalars S n nT sched1 sched2 = Some r /\ rep r mtarget.
Proof.
  intros Hn H1 H2 H3. unfold run_with. destruct (Z.eqb_spec n 0); [lia|]. destruct (Z.eqb_spec n 1); [lia|]. destruct nC_def as (B & C1 & C2). pose proof nB_b as NB.
  fold nC. rewrite bucketCount. rewrite (s32_small n), (s32_small nC) by lia. destruct (Z.leb_spec n 0); [lia|]. destruct (Z.leb_spec nC 0); [lia|]. cbn [orb].
  rewrite (w64_small (nC * n)), (w64_small (nT * nB)) by nia.
  destruct (slices_ok sched1 (alloc junkZ (nC * n)) H1) as (sl & -> & SO); [rewrite alloc_length; nia|]. cbn [obind].
  destruct (chunks_ok' sl sched2 (alloc junkE (nT * nB)) (alloc junkE nC) SO H2 H3) as (bm' & c' & -> & R); [rewrite alloc_length; nia|rewrite alloc_length; lia|]. cbn [obind snd].
  destruct (proj2 R (nC - 1) ltac:(lia)) as (r & -> & Rr). cbn [obind]. rewrite s32_small by lia. replace (nC - 2 + 1) with (nC - 1) by lia.
  destruct (horner_ok A E dbl add rep rep_dbl rep_add bits c' _ nC ltac:(lia) R (Z.to_nat (nC - 1)) r _ ltac:(lia) Rr) as (r' & -> & Rr').
  exists r'. split; [reflexivity|]. replace (nC - 1) with (Z.of_nat (Z.to_nat (nC - 1))) in Rr' at 2 by lia.
  rewrite gadd_comm, <- hsum_S in Rr'. rewrite <- hsum_mtarget. replace k with (Datatypes.S (Z.to_nat (nC - 1))) by (unfold k; lia). exact Rr'.
Qed.
Lemma lost_carry i : co i = 1 <-> smax bits k < scalar scalars S i.
Proof. unfold co. rewrite carry_iff; [rewrite dg_val; reflexivity|lia|intros; apply dg_b]. Qed.
Lemma lost_carry01 i : co i = 0 \/ co i = 1. Proof. apply carry_01. Qed.
End Run.
