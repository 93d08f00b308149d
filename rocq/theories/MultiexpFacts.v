(** Facts about the model of c/multiexp.cpp. *)
From Coq Require Import ZArith List Lia Bool Permutation.
From Verif Require Import Bytes BytesFacts Group GroupTac Naf NafFacts Multiexp.
Import ListNotations.
Open Scope Z_scope.
Ltac Zify.zify_post_hook ::= idtac.

(** ** arrays *)
Lemma lput_spec {E} (l : list E) i x : (i < length l)%nat ->
  exists l', lput l i x = Some l' /\ length l' = length l /\ forall j, nth_error l' j = if Nat.eqb j i then Some x else nth_error l j.
Proof.
  revert i; induction l as [|y l IH]; intros i H; [cbn in H; lia|]. destruct i as [|i]; cbn [lput].
  - eexists. split; [reflexivity|]. split; [reflexivity|]. intros [|j]; reflexivity.
  - cbn in H. destruct (IH i) as (l' & -> & L & N); [lia|]. eexists. split; [reflexivity|]. split; [cbn; lia|]. intros [|j]; [reflexivity|apply N].
Qed.
Lemma zrange_in a k x : In x (zrange a k) <-> a <= x < a + Z.of_nat k.
Proof.
  unfold zrange. rewrite in_map_iff. split.
  - intros (i & <- & H). apply in_seq in H. lia.
  - intros H. exists (Z.to_nat (x - a)). split; [lia|]. apply in_seq. lia.
Qed.
Lemma zrange_nodup a k : NoDup (zrange a k).
Proof.
  unfold zrange. apply FinFun.Injective_map_NoDup; [|apply seq_NoDup]. intros x y H. lia.
Qed.
Lemma zrange_S a k : zrange a (S k) = a :: zrange (a + 1) k.
Proof.
  unfold zrange. cbn [seq map]. f_equal; [lia|]. rewrite <- seq_shift, map_map. apply map_ext. intros i. lia.
Qed.
Lemma zrange_app k : forall a k', zrange a (k + k') = zrange a k ++ zrange (a + Z.of_nat k) k'.
Proof.
  induction k as [|k IH]; intros a k'; [cbn [plus]; replace (a + Z.of_nat 0) with a by lia; reflexivity|].
  cbn [plus]. rewrite !zrange_S, IH. cbn [app]. do 3 f_equal. lia.
Qed.

Section Facts.
Variable A : abgroup.
Variable E : Type.
Variables (zero cleared : E) (dbl : E -> E) (add addm subm : E -> E -> E) (isz iszm : E -> bool).
Variables rep repB : E -> A -> Prop.
Hypothesis rep_zero : rep zero gzero.
Hypothesis rep_cleared : rep cleared gzero.
Hypothesis rep_dbl : forall e x, rep e x -> rep (dbl e) (gadd x x).
Hypothesis rep_add : forall e x e' y, rep e x -> rep e' y -> rep (add e e') (gadd x y).
Hypothesis rep_addm : forall e x b y, rep e x -> repB b y -> rep (addm e b) (gadd x y).
Hypothesis rep_subm : forall e x b y, rep e x -> repB b y -> rep (subm e b) (gadd x (gneg y)).
Hypothesis rep_isz : forall e x, rep e x -> isz e = true -> x = gzero.
Hypothesis rep_iszm : forall b y, repB b y -> iszm b = true -> y = gzero.

(** an array of objects denoting the values of f *)
Definition repA (r : E -> A -> Prop) (N : Z) (l : list E) (f : Z -> A) : Prop :=
  Z.of_nat (length l) = N /\ forall i, 0 <= i < N -> exists e, aget l i = Some e /\ r e (f i).
Definition fadd (f : Z -> A) (k : Z) (p : A) : Z -> A := fun i => if i =? k then gadd (f i) p else f i.
Lemma fadd_same f k p : fadd f k p k = gadd (f k) p. Proof. unfold fadd. rewrite Z.eqb_refl. reflexivity. Qed.
Lemma fadd_other f k p i : i <> k -> fadd f k p i = f i. Proof. unfold fadd. intros H. destruct (Z.eqb_spec i k); [contradiction|reflexivity]. Qed.
Lemma rput N l f k e p : repA rep N l f -> 0 <= k < N -> rep e (gadd (f k) p) -> exists l', aput l k e = Some l' /\ repA rep N l' (fadd f k p).
Proof.
  intros [L H] Hk He. destruct (lput_spec l (Z.to_nat k) e) as (l' & P & L' & N'); [lia|]. exists l'.
  split; [unfold aput; destruct (Z.ltb_spec k 0); [lia|exact P]|]. split; [lia|]. intros i Hi. unfold aget. destruct (Z.ltb_spec i 0); [lia|]. rewrite N'.
  destruct (Z.eq_dec i k) as [->|Nk].
  - rewrite Nat.eqb_refl, fadd_same. eauto.
  - destruct (Nat.eqb_spec (Z.to_nat i) (Z.to_nat k)); [lia|]. rewrite fadd_other by auto. destruct (H i Hi) as (x & Hx & Rx).
    unfold aget in Hx. destruct (Z.ltb_spec i 0); [lia|]. eauto.
Qed.
Lemma repA_repeat N e : rep e gzero -> repA rep (Z.of_nat N) (repeat e N) (fun _ => gzero).
Proof.
  intros H. split; [rewrite repeat_length; reflexivity|]. intros i Hi. unfold aget. destruct (Z.ltb_spec i 0); [lia|]. exists e. split; [|exact H].
  apply nth_error_repeat. lia.
Qed.

(** ** weighted sums *)
Definition wsum (w : Z -> Z) (f : Z -> A) (l : list Z) : A := gsum (map (fun i => zmul (w i) (f i)) l).
Lemma wsum_cons w f i l : wsum w f (i :: l) = gadd (zmul (w i) (f i)) (wsum w f l). Proof. reflexivity. Qed.
Lemma wsum_app w f l l' : wsum w f (l ++ l') = gadd (wsum w f l) (wsum w f l').
Proof. unfold wsum. rewrite map_app. apply gsum_app. Qed.
Lemma wsum_ext w f g l : (forall i, In i l -> zmul (w i) (f i) = zmul (w i) (g i)) -> wsum w f l = wsum w g l.
Proof. intros H. unfold wsum. f_equal. apply map_ext_in, H. Qed.
Lemma wsum_zero w f l : (forall i, In i l -> w i = 0 \/ f i = gzero) -> wsum w f l = gzero.
Proof.
  intros H. induction l as [|i l IH]; [reflexivity|]. rewrite wsum_cons, IH by (intros; apply H; right; assumption).
  destruct (H i (or_introl eq_refl)) as [-> | ->]; rewrite ?zmul_zero, gadd_0_r; reflexivity.
Qed.
Lemma wsum_out w f k p l : ~ In k l -> wsum w (fadd f k p) l = wsum w f l.
Proof. intros H. apply wsum_ext. intros i Hi. rewrite fadd_other by (intros ->; contradiction). reflexivity. Qed.
Lemma wsum_in w f k p l : NoDup l -> In k l -> wsum w (fadd f k p) l = gadd (wsum w f l) (zmul (w k) p).
Proof.
  induction 1 as [|i l Hi N IH]; [intros []|]. intros [->|H]; rewrite !wsum_cons.
  - rewrite wsum_out, fadd_same, zmul_gadd by auto. rewrite <- !gadd_assoc. f_equal. apply gadd_comm.
  - rewrite IH by auto. rewrite fadd_other by (intros ->; contradiction). apply gadd_assoc.
Qed.

(** ** packThreads *)
Variables (N apc nT : Z).
Hypothesis apc_pos : 2 <= apc.
Hypothesis nT_pos : 1 <= nT.
Hypothesis N_def : N = nT * apc.
Hypothesis N_64 : N < 2 ^ 64.
Definition W (f : Z -> A) : A := wsum (fun k => k mod apc) f (zrange 0 (Z.to_nat N)).
Lemma in_N k : 0 <= k < N -> In k (zrange 0 (Z.to_nat N)). Proof. intros H. apply zrange_in. lia. Qed.
Lemma W_fadd f k p : 0 <= k < N -> W (fadd f k p) = gadd (W f) (zmul (k mod apc) p).
Proof. intros H. unfold W. rewrite wsum_in; [reflexivity|apply zrange_nodup|apply in_N, H]. Qed.
Lemma idx_bound j i : 0 <= j < nT -> 0 <= i < apc -> 0 <= j * apc + i < N.
Proof. intros H1 H2. rewrite N_def. nia. Qed.
Lemma idx_64 j i : 0 <= j < nT -> 0 <= i < apc -> w64 (j * apc + i) = j * apc + i.
Proof. intros H1 H2. pose proof (idx_bound j i H1 H2). apply Z.mod_small. lia. Qed.
Lemma idx_mod j i : 0 <= i < apc -> (j * apc + i) mod apc = i.
Proof. intros H. rewrite Z.add_comm, Z_mod_plus_full. apply Z.mod_small, H. Qed.
Lemma idx_inj j i j' i' : 0 <= i < apc -> 0 <= i' < apc -> j * apc + i = j' * apc + i' -> j = j' /\ i = i'.
Proof.
  intros H H' E0. assert (i = i') by (rewrite <- (idx_mod j i H), E0; apply idx_mod, H'). subst i'. split; [nia|reflexivity].
Qed.

Lemma pt_inner_ok i j accs f : 0 <= i < apc -> 1 <= j < nT -> repA rep N accs f ->
  exists accs' f', pt_inner E zero add isz apc i j accs = Some accs' /\ repA rep N accs' f' /\ W f' = W f /\ f' (j * apc + i) = gzero /\
    (forall k, k <> i -> k <> j * apc + i -> f' k = f k).
Proof.
  intros Hi Hj R. unfold pt_inner. rewrite idx_64 by lia. set (k := j * apc + i).
  assert (Hk : 0 <= k < N) by (apply idx_bound; lia). assert (Nk : k <> i) by (unfold k; nia). assert (Hi' : 0 <= i < N) by (pose proof (idx_bound 0 i); lia).
  destruct (proj2 R k Hk) as (x & -> & Rx). cbn [obind]. destruct (isz x) eqn:Z0.
  - exists accs, f. repeat split; try apply R; auto. eapply rep_isz; eauto.
  - destruct (proj2 R i Hi') as (a & -> & Ra). cbn [obind].
    destruct (rput N accs f i (add a x) (f k) R Hi' (rep_add _ _ _ _ Ra Rx)) as (l1 & -> & R1). cbn [obind].
    destruct (rput N l1 (fadd f i (f k)) k zero (gneg (f k)) R1 Hk) as (l2 & E2 & R2).
    { rewrite fadd_other by auto. rewrite gadd_neg. apply rep_zero. }
    exists l2, (fadd (fadd f i (f k)) k (gneg (f k))). split; [exact E2|]. split; [exact R2|]. split; [|split].
    + rewrite !W_fadd by auto. unfold k at 2. rewrite idx_mod by auto. rewrite (Z.mod_small i) by auto.
      rewrite zmul_gneg, <- gadd_assoc, gadd_neg. apply gadd_0_r.
    + rewrite fadd_same, fadd_other by auto. apply gadd_neg.
    + intros k' H1 H2. rewrite !fadd_other by auto. reflexivity.
Qed.
Lemma pt_loop_ok i : 0 <= i < apc -> forall l accs f, (forall j, In j l -> 1 <= j < nT) -> repA rep N accs f ->
  exists accs' f', ofold (pt_inner E zero add isz apc i) l accs = Some accs' /\ repA rep N accs' f' /\ W f' = W f /\
    (forall j, (In j l \/ (1 <= j /\ f (j * apc + i) = gzero)) -> f' (j * apc + i) = gzero) /\ (forall k, k mod apc <> i -> f' k = f k).
Proof.
  intros Hi. induction l as [|j l IH]; intros accs f Hl R; cbn [ofold].
  - exists accs, f. repeat split; try apply R. intros j [[]|[_ H]]; exact H.
  - destruct (pt_inner_ok i j accs f Hi (Hl j (or_introl eq_refl)) R) as (l1 & f1 & -> & R1 & W1 & Z1 & F1). cbn [obind].
    destruct (IH l1 f1 (fun j' H => Hl j' (or_intror H)) R1) as (l2 & f2 & -> & R2 & W2 & Z2 & F2).
    exists l2, f2. split; [reflexivity|]. split; [exact R2|]. split; [congruence|]. split.
    + intros j' Hj. apply Z2. destruct Hj as [[->|H]|[H1 H2]]; [right; split; [specialize (Hl j' (or_introl eq_refl)); lia|exact Z1]|left; exact H|].
      destruct (Z.eq_dec j' j) as [->|Nj]; [right; split; [exact H1|exact Z1]|]. right. split; [exact H1|]. rewrite F1; [exact H2| |]; nia.
    + intros k Hk. rewrite F2 by auto. apply F1; intros ->; apply Hk; [apply Z.mod_small, Hi|apply idx_mod, Hi].
Qed.
Lemma pt_all_ok : forall l accs f, (forall i, In i l -> 0 <= i < apc) -> repA rep N accs f ->
  exists accs' f', ofold (pt_iter E zero add isz nT apc) l accs = Some accs' /\ repA rep N accs' f' /\ W f' = W f /\
    (forall i j, 0 <= i < apc -> 1 <= j < nT -> (In i l \/ f (j * apc + i) = gzero) -> f' (j * apc + i) = gzero).
Proof.
  induction l as [|i l IH]; intros accs f Hl R; cbn [ofold].
  - exists accs, f. repeat split; try apply R. intros i j _ _ [[]|H]; exact H.
  - assert (Hi : 0 <= i < apc) by (apply Hl; left; reflexivity). unfold pt_iter at 1.
    destruct (pt_loop_ok i Hi (zrange 1 (Z.to_nat (nT - 1))) accs f) as (l1 & f1 & -> & R1 & W1 & Z1 & F1); [intros j Hj; apply zrange_in in Hj; lia|exact R|]. cbn [obind].
    destruct (IH l1 f1 (fun i' H => Hl i' (or_intror H)) R1) as (l2 & f2 & -> & R2 & W2 & Z2).
    exists l2, f2. split; [reflexivity|]. split; [exact R2|]. split; [congruence|].
    intros i' j Hi' Hj H. apply Z2; [auto|auto|]. destruct (Z.eq_dec i' i) as [->|Ni].
    + right. apply Z1. left. apply zrange_in. lia.
    + destruct H as [[H|H]|H]; [congruence|left; exact H|right]. rewrite F1; [exact H|]. rewrite idx_mod by auto. exact Ni.
Qed.

(** ** reduce *)
Definition V (b : nat) (f : Z -> A) : A := wsum (fun k => k) f (zrange 0 (Z.to_nat (2 ^ Z.of_nat b))).
Lemma V_fadd b f k p : 0 <= k < 2 ^ Z.of_nat b -> V b (fadd f k p) = gadd (V b f) (zmul k p).
Proof. intros H. unfold V. rewrite wsum_in; [reflexivity|apply zrange_nodup|apply zrange_in; lia]. Qed.
Definition tot (s : Z -> A) : A := wsum (fun _ => 1) s (zrange 0 (Z.to_nat nT)).
Lemma tot_fadd s t p : 0 <= t < nT -> tot (fadd s t p) = gadd (tot s) p.
Proof. intros H. unfold tot. rewrite wsum_in; [rewrite zmul_1; reflexivity|apply zrange_nodup|apply zrange_in; lia]. Qed.
Section Level.
Variables (nb : nat).
Let nd := 2 ^ Z.of_nat nb.
Hypothesis nd_N : 2 * nd <= N.
Hypothesis nb_1 : (1 <= nb)%nat.
Lemma nd_pos : 2 <= nd.
Proof. unfold nd. change 2 with (2 ^ 1) at 1. apply Z.pow_le_mono_r; lia. Qed.
Lemma nd_S : 2 ^ Z.of_nat (S nb) = 2 * nd.
Proof. rewrite Nat2Z.inj_succ, Z.pow_succ_r by lia. reflexivity. Qed.
Definition U (f s : Z -> A) : A := gadd (V (S nb) f) (zmul nd (tot s)).
Lemma rd_iter_ok i t accs sall f s : 1 <= i < nd -> 0 <= t < nT -> repA rep N accs f -> repA rep nT sall s ->
  exists accs' sall' f' s', rd_iter E zero add isz nd (i, t) (accs, sall) = Some (accs', sall') /\ repA rep N accs' f' /\ repA rep nT sall' s' /\
    U f' s' = U f s /\ f' (nd + i) = gzero /\ forall k, k <> i -> k <> nd + i -> f' k = f k.
Proof.
  intros Hi Ht R S. unfold rd_iter. assert (Hk : 0 <= nd + i < N) by lia. assert (Hi' : 0 <= i < N) by lia.
  replace (w64 (nd + i)) with (nd + i) by (symmetry; apply Z.mod_small; lia). set (k := nd + i) in *.
  assert (Nk : k <> i) by (unfold k; pose proof nd_pos; lia).
  destruct (proj2 R k Hk) as (x & Ex & Rx). rewrite Ex. cbn [obind]. destruct (isz x) eqn:Z0.
  - exists accs, sall, f, s. repeat split; try apply R; try apply S. eapply rep_isz; eauto.
  - destruct (proj2 R i Hi') as (a & -> & Ra). cbn [obind].
    destruct (rput N accs f i (add a x) (f k) R Hi' (rep_add _ _ _ _ Ra Rx)) as (l1 & -> & R1). cbn [obind].
    destruct (proj2 S t Ht) as (y & -> & Ry). cbn [obind].
    destruct (proj2 R1 k Hk) as (x' & -> & Rx'). rewrite fadd_other in Rx' by auto. cbn [obind].
    destruct (rput nT sall s t (add y x') (f k) S Ht (rep_add _ _ _ _ Ry Rx')) as (s1 & -> & S1). cbn [obind].
    destruct (rput N l1 (fadd f i (f k)) k zero (gneg (f k)) R1 Hk) as (l2 & -> & R2).
    { rewrite fadd_other by auto. rewrite gadd_neg. apply rep_zero. }
    cbn [obind]. exists l2, s1, (fadd (fadd f i (f k)) k (gneg (f k))), (fadd s t (f k)). split; [reflexivity|]. split; [exact R2|]. split; [exact S1|]. split; [|split].
    + unfold U. rewrite !V_fadd by (rewrite nd_S; unfold k; pose proof nd_pos; lia). rewrite tot_fadd by auto. rewrite zmul_gadd, zmul_gneg.
      unfold k at 2. agroup.
    + rewrite fadd_same, fadd_other by auto. apply gadd_neg.
    + intros k' H1 H2. rewrite !fadd_other by auto. reflexivity.
Qed.
Lemma rd_loop_ok : forall l accs sall f s, (forall it, In it l -> 1 <= fst it < nd /\ 0 <= snd it < nT) -> repA rep N accs f -> repA rep nT sall s ->
  exists accs' sall' f' s', ofold (rd_iter E zero add isz nd) l (accs, sall) = Some (accs', sall') /\ repA rep N accs' f' /\ repA rep nT sall' s' /\
    U f' s' = U f s /\ (forall i, 1 <= i < nd -> In i (map fst l) \/ f (nd + i) = gzero -> f' (nd + i) = gzero) /\
    (forall k, k <= 0 \/ k = nd \/ 2 * nd <= k -> f' k = f k).
Proof.
  induction l as [|[i t] l IH]; intros accs sall f s Hl R S; cbn [ofold].
  - exists accs, sall, f, s. split; [reflexivity|]. split; [exact R|]. split; [exact S|]. split; [reflexivity|]. split; [|reflexivity].
    intros i _ [[]|H]. exact H.
  - destruct (Hl (i, t) (or_introl eq_refl)) as [Hi Ht]. cbn [fst snd] in Hi, Ht.
    destruct (rd_iter_ok i t accs sall f s Hi Ht R S) as (l1 & s1 & f1 & g1 & -> & R1 & S1 & U1 & Z1 & F1). cbn [obind].
    destruct (IH l1 s1 f1 g1 (fun it H => Hl it (or_intror H)) R1 S1) as (l2 & s2 & f2 & g2 & -> & R2 & S2 & U2 & Z2 & F2).
    exists l2, s2, f2, g2. split; [reflexivity|]. split; [exact R2|]. split; [exact S2|]. split; [congruence|]. split.
    + intros i' Hi' H. apply Z2; [exact Hi'|]. destruct (Z.eq_dec i' i) as [->|Ni]; [right; exact Z1|].
      destruct H as [[H|H]|H]; [cbn in H; congruence|left; exact H|right]. rewrite F1; [exact H| |]; lia.
    + intros k Hk. rewrite F2 by exact Hk. apply F1; lia.
Qed.
(** lines 120-122: add the partial sums to accs[ndiv2] *)
Lemma rd_sall_ok sall s : repA rep nT sall s -> forall l accs f, (forall t, In t l -> 0 <= t < nT) -> repA rep N accs f ->
  exists accs' f', ofold (rd_sall E add nd sall) l accs = Some accs' /\ repA rep N accs' f' /\ f' nd = gadd (f nd) (wsum (fun _ => 1) s l) /\ forall k, k <> nd -> f' k = f k.
Proof.
  intros S. induction l as [|t l IH]; intros accs f Hl R; cbn [ofold].
  - exists accs, f. split; [reflexivity|]. split; [exact R|]. split; [cbn; symmetry; apply gadd_0_r|reflexivity].
  - assert (Hnd : 0 <= nd < N) by (pose proof nd_pos; lia). unfold rd_sall at 1.
    destruct (proj2 R nd Hnd) as (a & -> & Ra). cbn [obind]. destruct (proj2 S t (Hl t (or_introl eq_refl))) as (y & -> & Ry). cbn [obind].
    destruct (rput N accs f nd (add a y) (s t) R Hnd (rep_add _ _ _ _ Ra Ry)) as (l1 & -> & R1). cbn [obind].
    destruct (IH l1 _ (fun t' H => Hl t' (or_intror H)) R1) as (l2 & f2 & -> & R2 & E2 & F2).
    exists l2, f2. split; [reflexivity|]. split; [exact R2|]. split.
    + rewrite E2, fadd_same, wsum_cons, zmul_1. apply eq_sym, gadd_assoc.
    + intros k Hk. rewrite F2, fadd_other by auto. reflexivity.
Qed.
Lemma rd_dbl_ok : forall k a0 accs f, repA rep N accs f ->
  exists accs' f', ofold (rd_dbl E dbl nd) (zrange a0 k) accs = Some accs' /\ repA rep N accs' f' /\ f' nd = zmul (2 ^ Z.of_nat k) (f nd) /\ forall k, k <> nd -> f' k = f k.
Proof.
  assert (Hnd : 0 <= nd < N) by (pose proof nd_pos; lia).
  induction k as [|k IH]; intros a0 accs f R.
  - exists accs, f. split; [reflexivity|]. split; [exact R|]. split; [symmetry; apply zmul_1|reflexivity].
  - rewrite zrange_S. cbn [ofold]. unfold rd_dbl at 1. destruct (proj2 R nd Hnd) as (a & -> & Ra). cbn [obind].
    destruct (rput N accs f nd (dbl a) (f nd) R Hnd (rep_dbl _ _ Ra)) as (l1 & -> & R1). cbn [obind].
    destruct (IH (a0 + 1) l1 _ R1) as (l2 & f2 & -> & R2 & E2 & F2). exists l2, f2. split; [reflexivity|]. split; [exact R2|]. split.
    + rewrite E2, fadd_same, Nat2Z.inj_succ, Z.pow_succ_r by lia. agroup.
    + intros j Hj. rewrite F2, fadd_other by auto. reflexivity.
Qed.
Lemma V_split f : (forall i, 1 <= i < nd -> f (nd + i) = gzero) -> V (S nb) f = gadd (V nb f) (zmul nd (f nd)).
Proof.
  intros H. unfold V. rewrite nd_S. fold nd. pose proof nd_pos.
  replace (Z.to_nat (2 * nd)) with (Z.to_nat nd + S (Z.to_nat (nd - 1)))%nat by lia. rewrite zrange_app, wsum_app, zrange_S, wsum_cons.
  rewrite (wsum_zero (fun k => k) f (zrange (0 + Z.of_nat (Z.to_nat nd) + 1) _)), gadd_0_r; [repeat f_equal; lia|].
  intros i Hi. apply zrange_in in Hi. right. replace i with (nd + (i - nd)) by lia. apply H. lia.
Qed.
End Level.
(** the schedules of the loops of reduce, for every size *)
Definition red_sched_ok (sched : nat -> list (Z * Z)) : Prop := forall b, (2 <= b)%nat ->
  Permutation (map fst (sched b)) (zrange 1 (Z.to_nat (2 ^ (Z.of_nat b - 1) - 1))) /\ Forall (fun it => 0 <= snd it < nT) (sched b).
Lemma reduce_ok sched : red_sched_ok sched -> forall nBits accs f, (1 <= nBits)%nat -> 2 ^ Z.of_nat nBits <= N -> repA rep N accs f ->
  exists r accs' f', reduce E zero cleared dbl add isz nT sched nBits accs = Some (r, accs') /\ rep r (V nBits f) /\ repA rep N accs' f' /\
    (forall k, 1 <= k < 2 ^ Z.of_nat nBits -> f' k = gzero) /\ (forall k, k < 1 \/ 2 ^ Z.of_nat nBits <= k -> f' k = f k).
Proof.
  intros HS. induction nBits as [|nb IH]; intros accs f Hb HN R; [lia|]. destruct nb as [|nb'].
  - cbn [reduce]. change (2 ^ Z.of_nat 1) with 2 in *. destruct (proj2 R 1 ltac:(lia)) as (r & -> & Rr). cbn [obind].
    destruct (rput N accs f 1 zero (gneg (f 1)) R ltac:(lia)) as (l1 & -> & R1); [rewrite gadd_neg; apply rep_zero|]. cbn [obind].
    exists r, l1, (fadd f 1 (gneg (f 1))). split; [reflexivity|]. split; [|split; [exact R1|split]].
    + unfold V. change (zrange 0 (Z.to_nat (2 ^ Z.of_nat 1))) with [0; 1]. unfold wsum. cbn [map gsum fold_right]. rewrite zmul_0, zmul_1, gadd_0_l, gadd_0_r. exact Rr.
    + intros k Hk. replace k with 1 by lia. rewrite fadd_same. apply gadd_neg.
    + intros k Hk. apply fadd_other. lia.
  - set (nb := S nb') in *. assert (Hnb : (1 <= nb)%nat) by (unfold nb; lia).
    change (reduce E zero cleared dbl add isz nT sched (S nb) accs) with
      (let ndiv2 := Z.shiftl 1 (Z.of_nat nb) in
      obind (ofold (rd_iter E zero add isz ndiv2) (sched (S nb)) (accs, repeat cleared (Z.to_nat nT))) (fun st =>
      obind (ofold (rd_sall E add ndiv2 (snd st)) (zrange 0 (Z.to_nat nT)) (fst st)) (fun accs =>
      obind (reduce E zero cleared dbl add isz nT sched nb accs) (fun pr =>
      let p1 := fst pr in
      obind (ofold (rd_dbl E dbl ndiv2) (zrange 0 nb) (snd pr)) (fun accs =>
      obind (aget accs ndiv2) (fun a =>
      let res := add p1 a in
      obind (aput accs ndiv2 zero) (fun accs => Some (res, accs)))))))).
    cbv zeta. rewrite Z.shiftl_1_l. set (nd := 2 ^ Z.of_nat nb).
    assert (E2 : 2 ^ Z.of_nat (S nb) = 2 * nd) by (apply nd_S; first [exact Hnb|unfold nd in *; lia]). rewrite E2 in *. pose proof (nd_pos nb Hnb) as P2. fold nd in P2.
    destruct (HS (S nb) ltac:(lia)) as [HP HT]. replace (Z.of_nat (S nb) - 1) with (Z.of_nat nb) in HP by lia. fold nd in HP.
    destruct (rd_loop_ok nb HN Hnb (sched (S nb)) accs (repeat cleared (Z.to_nat nT)) f (fun _ => gzero)) as (l1 & s1 & f1 & g1 & Q1 & R1 & S1 & U1 & Z1 & F1).
    { intros it Hit. split.
      - assert (In (fst it) (zrange 1 (Z.to_nat (nd - 1)))) as Hin by (eapply Permutation_in; [exact HP|apply in_map, Hit]). apply zrange_in in Hin. fold nd. lia.
      - rewrite Forall_forall in HT. apply HT, Hit. }
    { exact R. }
    { pose proof (repA_repeat (Z.to_nat nT) cleared rep_cleared) as H. rewrite Z2Nat.id in H by lia. exact H. }
    fold nd in Q1. rewrite Q1. clear Q1. cbn [obind fst snd].
    destruct (rd_sall_ok nb HN Hnb s1 g1 S1 (zrange 0 (Z.to_nat nT)) l1 f1) as (l2 & f2 & Q2 & R2 & N2 & F2); [intros t Ht; apply zrange_in in Ht; lia|exact R1|].
    fold nd in Q2. rewrite Q2. clear Q2. cbn [obind].
    destruct (IH l2 f2 Hnb) as (p1 & l3 & f3 & -> & Rp & R3 & Z3 & F3); [fold nd; lia|exact R2|]. cbn [obind fst snd].
    destruct (rd_dbl_ok nb HN Hnb nb 0 l3 f3 R3) as (l4 & f4 & Q4 & R4 & N4 & F4). fold nd in Q4. rewrite Q4. clear Q4. cbn [obind].
    destruct (proj2 R4 nd ltac:(lia)) as (a & -> & Ra). cbn [obind].
    destruct (rput N l4 f4 nd zero (gneg (f4 nd)) R4 ltac:(lia)) as (l5 & -> & R5); [rewrite gadd_neg; apply rep_zero|]. cbn [obind].
    fold nd in Z1, F1, N2, F2, Z3, F3, N4, F4.
    exists (add p1 a), l5, (fadd f4 nd (gneg (f4 nd))). split; [reflexivity|]. split; [|split; [exact R5|split]].
    + assert (EV : V (S nb) f = gadd (V nb f2) (f4 nd)); [|rewrite EV; apply rep_add; assumption].
      assert (ZU : V (S nb) f = U nb f (fun _ => gzero)).
      { unfold U. unfold tot. rewrite wsum_zero by (right; reflexivity). rewrite zmul_zero, gadd_0_r. reflexivity. }
      rewrite ZU, <- U1. unfold U. fold nd. rewrite N4, F3, N2 by lia. fold nd.
      assert (Z1' : forall i, 1 <= i < nd -> f1 (nd + i) = gzero).
      { intros i Hi. apply Z1; [exact Hi|]. left. apply (Permutation_in (l := zrange 1 (Z.to_nat (nd - 1)))); [apply Permutation_sym, HP|apply zrange_in; lia]. }
      rewrite (V_split nb) by (auto; fold nd; exact Z1'). fold nd.
      assert (EV2 : V nb f2 = V nb f1). { unfold V. fold nd. apply wsum_ext. intros i Hi. apply zrange_in in Hi. rewrite F2 by lia. reflexivity. }
      rewrite EV2. unfold tot. agroup.
    + intros k Hk. destruct (Z.eq_dec k nd) as [->|Nk]; [rewrite fadd_same; apply gadd_neg|]. rewrite fadd_other, F4 by auto.
      destruct (Z.lt_ge_cases k nd) as [L|G]; [apply Z3; lia|]. rewrite F3 by lia. rewrite F2 by auto. replace k with (nd + (k - nd)) by lia. apply Z1; [lia|].
      left. apply (Permutation_in (l := zrange 1 (Z.to_nat (nd - 1)))); [apply Permutation_sym, HP|apply zrange_in; lia].
    + intros k Hk. rewrite fadd_other, F4, F3, F2, F1 by lia. reflexivity.
Qed.
End Facts.
