(** The constructor fills the tables. *)
From Coq Require Import ZArith Znumtheory Zpow_facts List Bool Lia Ring Arith.
From Verif Require Import NumTheory Multiexp MultiexpFacts MsmFacts Tower Zp PolyRoots Par ParFacts ParOwn Threads ThreadsFacts Fft FftFacts FftAlg FftFacts2 FftCtor.
Import ListNotations.
Open Scope Z_scope.
Ltac Zify.zify_post_hook ::= idtac.

Section Ctor.
Variable q : Z.
Hypothesis Hq : 1 < q.
Notation K := (Zp q Hq).
Add Ring Kr : (r_th K).
Notation RT i := (Sh 1 i).

(** ** search *)
Lemma nqr_sound fuel : forall a y, nqr_search q fuel a = Some y -> a <= y /\ powm q y ((q - 1) / 2) <> 1 /\ forall z, a <= z < y -> powm q z ((q - 1) / 2) = 1.
Proof.
  induction fuel as [|f IH]; intros a y H; cbn [nqr_search] in H; destruct (Z.eqb_spec (powm q a ((q - 1) / 2)) 1) as [E|E]; cbn [negb] in H.
  - discriminate.
  - injection H as <-. split; [lia|]. split; [exact E|]. intros; lia.
  - apply IH in H. destruct H as (H1 & H2 & H3). split; [lia|]. split; [exact H2|]. intros z Hz. destruct (Z.eq_dec z a) as [->|]; [exact E|]. apply H3. lia.
  - injection H as <-. split; [lia|]. split; [exact E|]. intros; lia.
Qed.
Lemma nqr_total x fuel : forall a, a <= x -> powm q x ((q - 1) / 2) <> 1 -> x - a <= Z.of_nat fuel -> exists y, nqr_search q fuel a = Some y.
Proof.
  induction fuel as [|f IH]; intros a Ha Hx HF; cbn [nqr_search]; destruct (Z.eqb_spec (powm q a ((q - 1) / 2)) 1) as [E|E]; cbn [negb]; try (eexists; reflexivity).
  - replace a with x in E by lia. contradiction.
  - apply IH; [|exact Hx|lia]. destruct (Z.eq_dec a x) as [->|]; [contradiction|lia].
Qed.
(** ** 2-adicity *)
Lemma two_adic_ok fuel : forall dp s aux s' aux', 0 <= aux -> dp - s <= Z.of_nat fuel -> two_adic fuel dp s aux = (s', aux') ->
  s <= s' <= Z.max s dp /\ aux = aux' * 2 ^ (s' - s) /\ 0 <= aux' /\ (s' < dp -> Z.even aux' = false).
Proof.
  induction fuel as [|f IH]; intros dp s aux s' aux' Ha Hf H; cbn [two_adic] in H.
  - injection H as <- <-. rewrite Z.sub_diag. split; [lia|]. split; [cbn; lia|]. split; [exact Ha|]. lia.
  - destruct (Z.even aux) eqn:Ev; cbn [andb] in H; [destruct (Z.ltb_spec s dp) as [L|L]|].
    + rewrite Z.shiftr_div_pow2 in H by lia. change (2 ^ 1) with 2 in H. apply Z.even_spec in Ev. destruct Ev as [h ->]. rewrite Z.mul_comm, Z.div_mul in H by lia.
      apply IH in H; [|lia|lia]. destruct H as (H1 & H2 & H3 & H4). split; [lia|]. split; [|split; assumption]. rewrite H2. replace (s' - s) with (Z.succ (s' - (s + 1))) by lia. rewrite Z.pow_succ_r by lia. ring.
    + injection H as <- <-. rewrite Z.sub_diag. split; [lia|]. split; [cbn; lia|]. split; [exact Ha|]. lia.
    + injection H as <- <-. rewrite Z.sub_diag. split; [lia|]. split; [cbn; lia|]. split; [exact Ha|]. intros _. exact Ev.
Qed.
Lemma two_adic_div dp s aux : prime q -> 2 < q -> 0 <= dp < 64 -> two_adic 64 dp 1 ((q - 1) / 2) = (s, aux) ->
  1 <= s <= Z.max 1 dp /\ q - 1 = aux * 2 ^ s /\ 0 < aux /\ (dp <= s <-> (2 ^ dp | q - 1)).
Proof.
  intros P H2 Hd H. assert (Ev : (q - 1) = 2 * ((q - 1) / 2)).
  { assert (Z.even q = false). { destruct (Z.even q) eqn:E; [|reflexivity]. apply Z.even_spec in E. destruct E as [h E]. destruct (prime_divisors q P 2) as [E2|[E2|[E2|E2]]]; try lia. exists h. lia. }
    assert (O : Z.odd q = true) by (rewrite <- Z.negb_even, H0; reflexivity). apply Z.odd_spec in O. destruct O as [h ->]. replace (2 * h + 1 - 1) with (h * 2) by lia. rewrite Z.div_mul by lia. lia. }
  apply two_adic_ok in H; [|apply Z.div_pos; lia|lia]. destruct H as (H1 & H3 & H4 & H5).
  assert (E : q - 1 = aux * 2 ^ s). { rewrite Ev, H3. replace s with (Z.succ (s - 1)) at 2 by lia. rewrite Z.pow_succ_r by lia. ring. }
  split; [exact H1|]. split; [exact E|]. split; [nia|]. split.
  - intros L. rewrite E. exists (aux * 2 ^ (s - dp)). rewrite <- Z.mul_assoc, <- Z.pow_add_r by lia. f_equal. f_equal. lia.
  - intros [c D]. destruct (Z.le_gt_cases dp s) as [L|L]; [exact L|]. exfalso. specialize (H5 L). rewrite D in E. replace dp with (Z.succ (dp - s - 1) + s) in E by lia. rewrite Z.pow_add_r, Z.pow_succ_r in E by lia.
    assert (0 < 2 ^ s) by (apply Z.pow_pos_nonneg; lia). assert (A : aux = 2 * (c * 2 ^ (dp - s - 1))) by nia. rewrite A, Z.even_mul in H5. discriminate.
Qed.
(** ** the root *)
Lemma powm_kpow x e : 0 <= e -> tozp q Hq (powm q x e) = kpow K (tozp q Hq x) (Z.to_nat e).
Proof. intros He. apply zp_eq. rewrite zv_kpow. cbn [zv tozp]. unfold powm. rewrite Z.mod_mod by lia. rewrite Z2Nat.id by lia. apply Zpower_mod. lia. Qed.
Lemma half_power x : prime q -> 2 < q -> powm q x ((q - 1) / 2) <> 1 -> x mod q <> 0 -> kpow K (tozp q Hq x) (Z.to_nat ((q - 1) / 2)) = ropp r1.
Proof.
  intros P H2 N N0. set (h := Z.to_nat ((q - 1) / 2)). assert (Ev : (q - 1) = 2 * ((q - 1) / 2)).
  { assert (Z.even q = false). { destruct (Z.even q) eqn:E; [|reflexivity]. apply Z.even_spec in E. destruct E as [g E]. destruct (prime_divisors q P 2) as [E2|[E2|[E2|E2]]]; try lia. exists g. lia. }
    assert (O : Z.odd q = true) by (rewrite <- Z.negb_even, H; reflexivity). apply Z.odd_spec in O. destruct O as [g ->]. replace (2 * g + 1 - 1) with (g * 2) by lia. rewrite Z.div_mul by lia. lia. }
  assert (F : kpow K (tozp q Hq x) (h * 2) = r1).
  { apply zp_eq. rewrite zv_kpow. cbn [zv tozp]. change (zv (r1 : K)) with (1 mod q). rewrite (Z.mod_small 1) by lia. rewrite <- Zpower_mod by lia. replace (Z.of_nat (h * 2)) with (q - 1) by lia. apply fermat; assumption. }
  rewrite kpow_mul in F. set (u := kpow K (tozp q Hq x) h) in *. assert (Nu : u <> r1).
  { intros E. apply N. assert (He : 0 <= (q - 1) / 2) by lia. pose proof (powm_kpow x _ He) as Q. fold h u in Q. rewrite E in Q. apply (f_equal zv) in Q. cbn [zv tozp] in Q. change (zv (r1 : K)) with (1 mod q) in Q. unfold powm in *. rewrite Z.mod_mod, (Z.mod_small 1) in Q by lia. exact Q. }
  assert (Z0 : rmul (rsub u r1) (radd u r1) = (r0 : K)). { cbn [kpow] in F. transitivity (rsub (rmul u (rmul u r1)) r1 : K); [ring|]. rewrite F. ring. }
  apply (no_zero_div K (Zp_field q Hq P)) in Z0. destruct Z0 as [Z0|Z0].
  - exfalso. apply Nu. transitivity (radd (rsub u r1) r1 : K); [ring|]. rewrite Z0. ring.
  - transitivity (rsub (radd u r1) r1 : K); [ring|]. rewrite Z0. ring.
Qed.
(** ** filling the table *)
Variable w : K.
Lemma pw1 : kpow K w (Z.to_nat 1) = w. Proof. change (Z.to_nat 1) with 1%nat. cbn [kpow]. ring. Qed.
Definition ro (a : addr) : Prop := a = RT 1.
Definition rv (a : addr) : K := w.
Definition own_th (s e th : Z) (a : addr) : Prop := match a with Lo t _ => t = th | Sh 1 i => s <= i < e /\ i <> 1 | _ => False end.
Notation good := (good K ro rv).
Lemma exp_bits_true th r e (own : addr -> Prop) i : (forall k, own (Lo th k)) -> own r -> r <> Lo th 0 -> 0 <= e -> forall m, m (Lo th 0%nat) = w -> m r = kpow K w (Z.to_nat (Z.shiftr e (Z.of_nat i))) ->
  let l := exp_bits q Hq th r e i true in good own l m /\ prun l m r = kpow K w (Z.to_nat e) /\ forall a, a <> r -> prun l m a = m a.
Proof.
  intros HL Hr NR He. induction i as [|i IH]; intros m Hm Hmr l.
  - subst l. cbn [exp_bits]. split; [exact I|]. split; [|reflexivity]. cbn [prun fold_left]. rewrite Hmr, Z.shiftr_0_r. reflexivity.
  - subst l. cbn [exp_bits]. set (b := Z.testbit e (Z.of_nat i)). set (m1 := exec1 (Imul K r r r) m).
    assert (M1r : m1 r = kpow K w (Z.to_nat (2 * Z.shiftr e (Z.of_nat (S i))))).
    { unfold m1. rewrite imul, pset_same, Hmr. rewrite <- kpow_add. f_equal. assert (0 <= Z.shiftr e (Z.of_nat (S i))) by (apply Z.shiftr_nonneg; exact He). lia. }
    assert (M1o : forall a, a <> r -> m1 a = m a) by (intros a N; unfold m1; rewrite imul; apply pset_other, N).
    assert (SH : Z.shiftr e (Z.of_nat i) = 2 * Z.shiftr e (Z.of_nat (S i)) + Z.b2z b).
    { rewrite Nat2Z.inj_succ. unfold Z.succ. rewrite <- Z.shiftr_shiftr by lia. pose proof (Z.div2_odd (Z.shiftr e (Z.of_nat i))) as D. rewrite Z.div2_spec in D. rewrite D at 1. f_equal. f_equal. rewrite <- Z.bit0_odd. rewrite Z.shiftr_spec by lia. reflexivity. }
    assert (NN : 0 <= Z.shiftr e (Z.of_nat (S i))) by (apply Z.shiftr_nonneg; exact He).
    destruct b eqn:Eb; cbn [app].
    + set (m2 := exec1 (Imul K r r (Lo th 0)) m1). assert (M2o : forall a, a <> r -> m2 a = m a) by (intros a N; unfold m2; rewrite imul, pset_other by exact N; apply M1o, N).
      destruct (IH m2) as (G & R & O).
      { rewrite M2o by congruence. exact Hm. }
      { unfold m2. rewrite imul, pset_same, M1r, M1o by congruence. rewrite Hm, SH. cbn [Z.b2z]. replace (Z.to_nat (2 * Z.shiftr e (Z.of_nat (S i)) + 1)) with (Z.to_nat (2 * Z.shiftr e (Z.of_nat (S i))) + 1)%nat by lia. rewrite kpow_add. cbn [kpow]. ring. }
      split; [|split].
      * cbn [ParOwn.good]. cbn [srcs dst Imul]. split; [intros a [<-|[<-|[]]]; left; exact Hr|]. split; [left; exact Hr|]. split; [intros a [<-|[<-|[]]]; left; auto|]. split; [left; exact Hr|]. exact G.
      * rewrite !prun_cons. exact R.
      * intros a N. rewrite !prun_cons. fold m1. fold m2. rewrite O by exact N. apply M2o, N.
    + destruct (IH m1) as (G & R & O).
      { rewrite M1o by congruence. exact Hm. } { rewrite M1r, SH. cbn [Z.b2z]. f_equal. f_equal. lia. }
      split; [|split].
      * cbn [ParOwn.good]. cbn [srcs dst Imul]. split; [intros a [<-|[<-|[]]]; left; exact Hr|]. split; [left; exact Hr|]. exact G.
      * rewrite !prun_cons. exact R.
      * intros a N. rewrite !prun_cons. fold m1. rewrite O by exact N. apply M1o, N.
Qed.
Lemma exp_bits_false th r e (own : addr -> Prop) i : (forall k, own (Lo th k)) -> own r -> r <> Lo th 0 -> 0 <= e < 2 ^ Z.of_nat i -> forall m, m (Lo th 0%nat) = w ->
  let l := exp_bits q Hq th r e i false in good own l m /\ prun l m r = kpow K w (Z.to_nat e) /\ forall a, a <> r -> prun l m a = m a.
Proof.
  intros HL Hr NR. induction i as [|i IH]; intros He m Hm l; subst l; cbn [exp_bits].
  - assert (e = 0) by (cbn in He; lia). subst e. split; [cbn; tauto|]. split; [cbn [prun fold_left]; unfold exec1; cbn [dst Ione fn]; apply pset_same|].
    intros a N. cbn [prun fold_left]. unfold exec1. cbn [dst Ione]. apply pset_other, N.
  - rewrite Nat2Z.inj_succ, Z.pow_succ_r in He by lia. destruct (Z.testbit e (Z.of_nat i)) eqn:Eb.
    + set (m1 := exec1 (Icopy K r (Lo th 0)) m). assert (M1o : forall a, a <> r -> m1 a = m a) by (intros a N; unfold m1; rewrite icopy; apply pset_other, N).
      assert (E1 : Z.shiftr e (Z.of_nat i) = 1).
      { rewrite Z.shiftr_div_pow2 by lia. assert (0 < 2 ^ Z.of_nat i) by (apply Z.pow_pos_nonneg; lia). assert (e / 2 ^ Z.of_nat i < 2) by (apply Z.div_lt_upper_bound; lia). assert (0 <= e / 2 ^ Z.of_nat i) by (apply Z.div_pos; lia).
        assert (e / 2 ^ Z.of_nat i <> 0); [|lia]. intros Z0. apply Z.testbit_true in Eb; [|lia]. rewrite Z0 in Eb. discriminate. }
      destruct (exp_bits_true th r e own i HL Hr NR ltac:(lia) m1) as (G & R & O).
      { rewrite M1o by congruence. exact Hm. } { unfold m1. rewrite icopy, pset_same, Hm, E1. rewrite pw1. reflexivity. }
      split; [|split].
      * cbn [ParOwn.good]. cbn [srcs dst Icopy]. split; [intros a [<-|[]]; left; auto|]. split; [left; exact Hr|exact G].
      * rewrite prun_cons. exact R.
      * intros a N. rewrite prun_cons. fold m1. rewrite O by exact N. apply M1o, N.
    + apply IH; [|exact Hm]. split; [lia|]. assert (0 < 2 ^ Z.of_nat i) by (apply Z.pow_pos_nonneg; lia). destruct (Z.lt_ge_cases e (2 ^ Z.of_nat i)) as [L|L]; [exact L|]. exfalso.
      assert (T : Z.testbit e (Z.of_nat i) = true); [|congruence]. apply Z.testbit_true; [lia|]. replace (e / 2 ^ Z.of_nat i) with 1; [reflexivity|]. apply Z.div_unique with (r := e - 2 ^ Z.of_nat i); lia.
Qed.
Lemma exp_bits_one th r : exp_bits q Hq th r 1 64 false = [Icopy K r (Lo th 0)]. Proof. reflexivity. Qed.
Notation pw i := (kpow K w (Z.to_nat i)).
Lemma exp_code_ok th s e : 0 <= s < e -> e <= 2 ^ 63 -> forall m, m (RT 1) = w -> let l := exp_code q Hq th s in
  good (own_th s e th) l m /\ prun l m (RT s) = pw s /\ prun l m (RT 1) = w /\ forall a, a <> RT s -> a <> Lo th 0 -> prun l m a = m a.
Proof.
  intros Hs He m Hm l. subst l. unfold exp_code. set (m1 := exec1 (Icopy K (Lo th 0) (RT 1)) m).
  assert (M1 : m1 (Lo th 0%nat) = w) by (unfold m1; rewrite icopy, pset_same; exact Hm). assert (M1o : forall a, a <> Lo th 0 -> m1 a = m a) by (intros a N; unfold m1; rewrite icopy; apply pset_other, N).
  destruct (Z.eq_dec s 1) as [->|N1].
  - rewrite exp_bits_one. set (m2 := exec1 (Icopy K (RT 1) (Lo th 0)) m1). change (prun [Icopy K (Lo th 0) (RT 1); Icopy K (RT 1) (Lo th 0)] m) with m2.
    assert (M2 : m2 (RT 1) = w) by (unfold m2; rewrite icopy, pset_same; exact M1). split; [|split; [|split]].
    + cbn [ParOwn.good srcs dst Icopy]. split; [intros a [<-|[]]; right; reflexivity|]. split; [left; reflexivity|]. fold m1. split; [intros a [<-|[]]; left; reflexivity|]. split; [|exact I]. right. split; [reflexivity|]. unfold rv. cbn. exact M1.
    + rewrite M2. rewrite pw1. reflexivity.
    + exact M2.
    + intros a N N0. unfold m2. rewrite icopy, pset_other by exact N. apply M1o, N0.
  - destruct (exp_bits_false th (RT s) s (own_th s e th) 64) with (m := m1) as (G & R & O); [intros; reflexivity|cbn; lia|discriminate|lia|exact M1|].
    rewrite prun_cons. fold m1. split; [|split; [exact R|split]].
    + cbn [ParOwn.good srcs dst Icopy]. split; [intros a [<-|[]]; right; reflexivity|]. split; [left; reflexivity|exact G].
    + rewrite O by congruence. rewrite M1o by discriminate. exact Hm.
    + intros a N N0. rewrite O by exact N. apply M1o, N0.
Qed.
Lemma mul_loop_ok th s e k : 0 <= s -> forall c m, s < c -> c + Z.of_nat k <= e -> m (RT 1) = w -> (forall i, s <= i < c -> m (RT i) = pw i) ->
  let l := map (fun i => Imul K (RT i) (RT (i - 1)) (RT 1)) (zrange c k) in
  good (own_th s e th) l m /\ prun l m (RT 1) = w /\ (forall i, s <= i < c + Z.of_nat k -> prun l m (RT i) = pw i) /\ forall a, (forall i, c <= i < c + Z.of_nat k -> a <> RT i) -> prun l m a = m a.
Proof.
  intros Hs. induction k as [|k IH]; intros c m Hc He Hm Hv l; subst l.
  - cbn. split; [exact I|]. split; [exact Hm|]. split; [|reflexivity]. intros i Hi. apply Hv. lia.
  - rewrite zrange_S. cbn [map]. set (x := Imul K (RT c) (RT (c - 1)) (RT 1)). set (m1 := exec1 x m).
    assert (V1 : m1 (RT c) = pw c). { unfold m1, x. rewrite imul, pset_same, Hm, Hv by lia. replace (Z.to_nat c) with (Z.to_nat (c - 1) + 1)%nat by lia. rewrite kpow_add. cbn [kpow]. ring. }
    assert (O1 : forall a, a <> RT c -> m1 a = m a) by (intros a N; unfold m1, x; rewrite imul; apply pset_other, N).
    assert (M1 : m1 (RT 1) = w). { destruct (Z.eq_dec c 1) as [->|N]; [rewrite V1; rewrite pw1; reflexivity|]. rewrite O1 by congruence. exact Hm. }
    destruct (IH (c + 1) m1) as (G & R & A & O); [lia|lia|exact M1| |].
    { intros i Hi. destruct (Z.eq_dec i c) as [->|]; [exact V1|]. rewrite O1 by congruence. apply Hv. lia. }
    rewrite prun_cons. fold m1. split; [|split; [exact R|split]].
    + cbn [ParOwn.good]. fold m1. split; [|split; [|exact G]].
      * cbn [srcs x Imul]. assert (Q : forall i, s <= i < e -> own_th s e th (RT i) \/ ro (RT i)) by (intros i Hi; unfold ro; destruct (Z.eq_dec i 1) as [->|]; [right; reflexivity|left; cbn; lia]).
        intros a [<-|[<-|[]]]; [apply Q; lia|right; reflexivity].
      * cbn [dst x Imul]. destruct (Z.eq_dec c 1) as [E|]; [right|left; cbn; lia]. split; [unfold ro; rewrite E; reflexivity|]. unfold rv. transitivity (m1 (RT c)); [symmetry; apply exec1_same|]. rewrite E. exact M1.
    + intros i Hi. apply A. lia.
    + intros a Ha. rewrite O; [apply O1, Ha; lia|]. intros i Hi. apply Ha. lia.
Qed.
Lemma fill_ok nR nT th m : m (RT 1) = w -> nR <= 2 ^ 62 -> let s := fill_start nR th nT in let e := fill_end nR th nT in 0 <= s -> e <= nR ->
  let l := fill_code q Hq nR th nT in good (own_th s e th) l m /\ forall i, s <= i < e -> prun l m (RT i) = pw i.
Proof.
  intros Hm HR s e Hs He l. subst l. unfold fill_code. fold s. fold e. destruct (Z.ltb_spec s e) as [L|L].
  - destruct (exp_code_ok th s e ltac:(lia) ltac:(lia) m Hm) as (G & R & R1 & O). set (m1 := prun (exp_code q Hq th s) m) in *.
    destruct (mul_loop_ok th s e (Z.to_nat (e - (s + 1))) Hs (s + 1) m1 ltac:(lia) ltac:(lia) R1) as (G2 & R2 & A2 & _).
    { intros i Hi. replace i with s by lia. exact R. }
    split; [apply good_app; assumption|]. intros i Hi. rewrite prun_app. fold m1. apply A2. lia.
  - replace (Z.to_nat (e - (s + 1))) with 0%nat by lia. split; [exact I|]. intros; lia.
Qed.
Lemma fill_bounds nR nT th : 2 <= nR <= 2 ^ 62 -> 1 <= nT < 2 ^ 31 -> 0 <= th < nT -> let inc := nR / nT in
  fill_start nR th nT = (if th =? 0 then 2 else th * inc) /\ fill_end nR th nT = (if th =? nT - 1 then nR else (th + 1) * inc) /\ 0 <= fill_start nR th nT /\ fill_end nR th nT <= nR.
Proof.
  intros HR HT Ht inc. unfold fill_start, fill_end. fold inc. assert (I0 : 0 <= inc) by (apply Z.div_pos; lia). assert (IM : nT * inc <= nR) by (apply Z.mul_div_le; lia).
  assert (A : th * inc <= nT * inc) by (apply Z.mul_le_mono_nonneg_r; lia). assert (B : (th + 1) * inc <= nT * inc) by (apply Z.mul_le_mono_nonneg_r; lia).
  assert (0 <= th * inc) by (apply Z.mul_nonneg_nonneg; lia). assert (0 <= (th + 1) * inc) by (apply Z.mul_nonneg_nonneg; lia).
  rewrite !w64_small by lia. split; [reflexivity|]. split; [reflexivity|]. destruct (Z.eqb_spec th 0), (Z.eqb_spec th (nT - 1)); lia.
Qed.
Lemma fill_disjoint nR nT th th' i : 2 <= nR <= 2 ^ 62 -> 1 <= nT < 2 ^ 31 -> 0 <= th < nT -> 0 <= th' < nT -> fill_start nR th nT <= i < fill_end nR th nT -> fill_start nR th' nT <= i < fill_end nR th' nT -> th = th'.
Proof.
  intros HR HT Ht Ht' H H'. destruct (fill_bounds nR nT th HR HT Ht) as (S1 & E1 & _). destruct (fill_bounds nR nT th' HR HT Ht') as (S2 & E2 & _). rewrite S1, E1 in H. rewrite S2, E2 in H'.
  set (inc := nR / nT) in *. assert (I0 : 0 <= inc) by (apply Z.div_pos; lia).
  assert (G : forall a b, 0 <= a < b -> b < nT -> (if a =? 0 then 2 else a * inc) <= i < (if a =? nT - 1 then nR else (a + 1) * inc) -> (if b =? 0 then 2 else b * inc) <= i -> False).
  { intros a b Hab Hb Ha Hi. destruct (Z.eqb_spec a (nT - 1)); [lia|]. destruct (Z.eqb_spec b 0); [lia|]. assert ((a + 1) * inc <= b * inc) by (apply Z.mul_le_mono_nonneg_r; lia). lia. }
  destruct (Z.lt_trichotomy th th') as [L|[E|L]]; [|exact E|]; exfalso; [apply (G th th')|apply (G th' th)]; try lia; assumption.
Qed.
Lemma fill_cover nR nT i : 2 <= nR <= 2 ^ 62 -> 1 <= nT < 2 ^ 31 -> 2 <= i < nR -> exists th, 0 <= th < nT /\ fill_start nR th nT <= i < fill_end nR th nT.
Proof.
  intros HR HT Hi. set (inc := nR / nT). assert (I0 : 0 <= inc) by (apply Z.div_pos; lia).
  destruct (Z.eq_dec nT 1) as [->|N1].
  - exists 0. split; [lia|]. destruct (fill_bounds nR 1 0 HR HT ltac:(lia)) as (-> & -> & _). cbn. lia.
  - destruct (Z.lt_ge_cases i ((nT - 1) * inc)) as [L|L].
    + assert (Ip : 0 < inc). { destruct (Z.eq_dec inc 0) as [E|]; [|lia]. rewrite E, Z.mul_0_r in L. lia. }
      exists (i / inc). assert (D0 : 0 <= i / inc) by (apply Z.div_pos; lia). assert (D1 : i / inc < nT - 1) by (apply Z.div_lt_upper_bound; lia). split; [lia|].
      destruct (fill_bounds nR nT (i / inc) HR HT ltac:(lia)) as (-> & -> & _). fold inc. destruct (Z.eqb_spec (i / inc) (nT - 1)); [lia|].
      pose proof (Z.mul_div_le i inc Ip). pose proof (Z.mul_succ_div_gt i inc Ip). destruct (Z.eqb_spec (i / inc) 0); lia.
    + exists (nT - 1). split; [lia|]. destruct (fill_bounds nR nT (nT - 1) HR HT ltac:(lia)) as (-> & -> & _). fold inc. destruct (Z.eqb_spec (nT - 1) 0); [lia|]. rewrite Z.eqb_refl. lia.
Qed.
Lemma block_nth nR nT k t : 1 <= nT -> nth_error (map (fun c => fill_code q Hq nR (fst c) (snd c)) (parallelBlock_calls nT)) k = Some t -> Z.of_nat k < nT /\ t = fill_code q Hq nR (Z.of_nat k) nT.
Proof.
  intros HT E. unfold parallelBlock_calls in E. rewrite map_map in E. cbn [fst snd] in E. assert (L : (k < length (map (fun x => fill_code q Hq nR x nT) (zrange 0 (Z.to_nat nT))))%nat) by (apply nth_error_Some; congruence).
  assert (N : forall n a j, (j < n)%nat -> nth_error (zrange a n) j = Some (a + Z.of_nat j)).
  { clear. induction n as [|n IH]; intros a j Hj; [lia|]. rewrite zrange_S. destruct j as [|j]; cbn [nth_error]; [f_equal; lia|]. rewrite IH by lia. f_equal. lia. }
  assert (LZ : length (zrange 0 (Z.to_nat nT)) = Z.to_nat nT) by (clear; unfold zrange; rewrite ?map_length, ?seq_length; reflexivity).
  rewrite map_length, LZ in L. rewrite nth_error_map, N in E by lia. cbn [option_map] in E. injection E as <-. split; [lia|reflexivity].
Qed.
Theorem fill_block nR nT m m' : 2 <= nR <= 2 ^ 62 -> 1 <= nT < 2 ^ 31 -> m (RT 0) = r1 -> m (RT 1) = w -> parblock K nT (fill_code q Hq nR) m m' ->
  (forall i, 0 <= i < nR -> m' (RT i) = pw i) /\ (forall a i, a <> 1%nat -> m' (Sh a i) = m (Sh a i)).
Proof.
  intros HR HT H0 H1 (l & I & Q).
  set (own := fun k a => Z.of_nat k < nT /\ own_th (fill_start nR (Z.of_nat k) nT) (fill_end nR (Z.of_nat k) nT) (Z.of_nat k) a).
  destruct (own_run K ro rv _ _ I own m) as (R & O & U).
  - intros k k' a (Hk & Ha) (Hk' & Ha'). destruct a as [[|[|r]] i|t j]; cbn [own_th] in *; try contradiction; [|lia]. apply Nat2Z.inj. apply (fill_disjoint nR nT _ _ i HR HT); lia.
  - intros k a (_ & Ha) Hr. unfold ro in Hr. subst a. cbn [own_th] in Ha. lia.
  - intros a Ha. rewrite Ha. exact H1.
  - intros k t E. apply block_nth in E; [|lia]. destruct E as [Hk ->]. destruct (fill_bounds nR nT (Z.of_nat k) HR HT ltac:(lia)) as (_ & _ & B1 & B2).
    destruct (fill_ok nR nT (Z.of_nat k) m H1 ltac:(lia) B1 B2) as [G _]. revert G. generalize (fill_code q Hq nR (Z.of_nat k) nT). intros t. generalize m. induction t as [|x t IH]; intros mm G; [exact Logic.I|].
    destruct G as (G1 & G2 & G3). split; [|split; [|apply IH, G3]].
    + intros a Ha. destruct (G1 a Ha) as [D|D]; [left; split; [exact Hk|exact D]|right; exact D].
    + destruct G2 as [D|D]; [left; split; [exact Hk|exact D]|right; exact D].
  - split.
    + assert (big : forall i th, 0 <= th < nT -> fill_start nR th nT <= i < fill_end nR th nT -> i <> 1 -> m' (RT i) = pw i).
      { intros i th Hth Hi Ni. rewrite Q. destruct (fill_bounds nR nT th HR HT Hth) as (_ & _ & B1 & B2). destruct (fill_ok nR nT th m H1 ltac:(lia) B1 B2) as [_ G]. rewrite <- (G i Hi).
        apply (O (Z.to_nat th)); [|unfold own; rewrite Z2Nat.id by lia; split; [lia|cbn; lia]].
        unfold parallelBlock_calls. rewrite map_map, nth_error_map. cbn [fst snd]. assert (N : forall n a j, (j < n)%nat -> nth_error (zrange a n) j = Some (a + Z.of_nat j)).
        { clear. induction n as [|n IH]; intros a j Hj; [lia|]. rewrite zrange_S. destruct j as [|j]; cbn [nth_error]; [f_equal; lia|]. rewrite IH by lia. f_equal. lia. }
        rewrite N by lia. cbn [option_map]. f_equal. f_equal. lia. }
      intros i Hi. destruct (Z.eq_dec i 1) as [->|N1]; [rewrite Q, (R (RT 1) eq_refl); unfold rv; rewrite pw1; reflexivity|].
      destruct (Z.eq_dec i 0) as [->|N0].
      * destruct (Z.lt_ge_cases nR nT) as [L|L].
        -- apply (big 0 (nT - 1)); [lia| |lia]. destruct (fill_bounds nR nT (nT - 1) HR HT ltac:(lia)) as (-> & -> & _). rewrite Z.div_small by lia. destruct (Z.eqb_spec (nT - 1) 0); [lia|]. rewrite Z.eqb_refl. lia.
        -- rewrite Q, U; [exact H0| |discriminate]. intros k Hk (Hk' & D). cbn [own_th] in D. destruct (fill_bounds nR nT (Z.of_nat k) HR HT ltac:(lia)) as (E1 & _). rewrite E1 in D.
           assert (1 <= nR / nT) by (apply Z.div_le_lower_bound; lia). destruct (Z.eqb_spec (Z.of_nat k) 0); nia.
      * destruct (fill_cover nR nT i HR HT ltac:(lia)) as (th & Hth & Hi'). apply (big i th Hth Hi' N1).
    + intros a i Na. rewrite Q. apply U.
      * intros k _ (_ & D). cbn [own_th] in D. destruct a as [|[|a]]; [exact D|congruence|exact D].
      * unfold ro. congruence.
Qed.
(** powTwoInv *)
Lemma halves_ok k : forall c m, 2 <= c -> (forall i, 0 <= i < c -> m (Sh 2 i) = kpow K (m (Sh 2 1)) (Z.to_nat i)) ->
  let m' := prun (map (fun i => Imul K (Sh 2 i) (Sh 2 (i - 1)) (Sh 2 1)) (zrange c k)) m in
  m' (Sh 2 1) = m (Sh 2 1) /\ (forall i, 0 <= i < c + Z.of_nat k -> m' (Sh 2 i) = kpow K (m (Sh 2 1)) (Z.to_nat i)) /\ forall a i, a <> 2%nat -> m' (Sh a i) = m (Sh a i).
Proof.
  induction k as [|k IH]; intros c m Hc Hv m'; subst m'.
  - cbn. split; [reflexivity|]. split; [|reflexivity]. intros i Hi. apply Hv. lia.
  - rewrite zrange_S. cbn [map]. rewrite prun_cons, imul. set (m1 := pset m _ _).
    assert (O1 : forall a, a <> Sh 2 c -> m1 a = m a) by (intros a N; unfold m1; apply pset_other, N).
    assert (M1 : m1 (Sh 2 1) = m (Sh 2 1)) by (apply O1; intros E; injection E; lia).
    destruct (IH (c + 1) m1) as (R & A & O); [lia| |].
    { intros i Hi. rewrite M1. destruct (Z.eq_dec i c) as [->|]; [|rewrite O1 by congruence; apply Hv; lia]. unfold m1. rewrite pset_same, (Hv (c - 1)) by lia. replace (Z.to_nat c) with (Z.to_nat (c - 1) + 1)%nat by lia. rewrite kpow_add. cbn [kpow]. ring. }
    rewrite M1 in *. split; [exact R|]. split; [intros i Hi; apply A; lia|]. intros a i Na. rewrite O by exact Na. apply O1. congruence.
Qed.
End Ctor.
