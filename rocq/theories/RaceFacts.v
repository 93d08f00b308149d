(** The parallel loops of multiexp and MSM are race free. *)
From Coq Require Import ZArith List Bool Lia Permutation.
From Verif Require Import Bytes Naf Multiexp MultiexpFacts Msm MsmFacts Par ParFacts RaceModel.
Import ListNotations.
Open Scope Z_scope.

(** ** arrays *)
Lemma aget_nth {X} (l : list X) k : 0 <= k -> aget l k = nth_error l (Z.to_nat k).
Proof. intros H. unfold aget. destruct (Z.ltb_spec k 0); [lia|reflexivity]. Qed.
Lemma aget_nonneg {X} (l : list X) k x : aget l k = Some x -> 0 <= k.
Proof. unfold aget. destruct (Z.ltb_spec k 0); [discriminate|auto]. Qed.
Lemma lput_get {X} : forall (l l' : list X) i x, lput l i x = Some l' -> forall j, nth_error l' j = if Nat.eqb j i then Some x else nth_error l j.
Proof.
  induction l as [|y l IH]; intros l' i x H; [discriminate|]. destruct i as [|i]; cbn in H.
  - injection H as <-. intros [|j]; reflexivity.
  - destruct (lput l i x) as [l1|] eqn:E; [|discriminate]. injection H as <-. intros [|j]; [reflexivity|]. cbn. apply (IH _ _ _ E).
Qed.
Lemma aput_get {X} (l l' : list X) k x : aput l k x = Some l' -> forall j, aget l' j = if j =? k then Some x else aget l j.
Proof.
  unfold aput, aget. destruct (Z.ltb_spec k 0); [discriminate|]. intros H1 j. destruct (Z.ltb_spec j 0).
  - destruct (Z.eqb_spec j k); [lia|reflexivity].
  - rewrite (lput_get _ _ _ _ H1). destruct (Nat.eqb_spec (Z.to_nat j) (Z.to_nat k)), (Z.eqb_spec j k); try reflexivity; lia.
Qed.
Section R.
Context {V : Type}.
Implicit Types m : pmem V.
Lemma prun_one (x : instr V) m : prun [x] m = exec1 x m. Proof. reflexivity. Qed.
Lemma prun_two (x y : instr V) m : prun [x; y] m = exec1 y (exec1 x m). Proof. reflexivity. Qed.
Lemma holds_put arr (l l' : list V) m k x : holds arr l m -> aput l k x = Some l' -> holds arr l' (pset m (Sh arr k) x).
Proof.
  intros H P j y G. rewrite (aput_get _ _ _ _ P) in G. destruct (Z.eqb_spec j k) as [->|N].
  - injection G as <-. apply pset_same.
  - rewrite pset_other by congruence. apply H, G.
Qed.
Lemma holds_other arr (l : list V) m a x : holds arr l m -> (forall k, a <> Sh arr k) -> holds arr l (pset m a x).
Proof. intros H N j y G. rewrite pset_other by (intros E; apply (N j); auto). apply H, G. Qed.
Lemma holds_same arr (l : list V) m k x : holds arr l m -> m (Sh arr k) = x -> holds arr l (pset m (Sh arr k) x).
Proof. intros H E j y G. destruct (Z.eq_dec j k) as [->|N]; [rewrite pset_same; rewrite <- E; apply H, G|rewrite pset_other by congruence; apply H, G]. Qed.
Lemma holds_meq arr (l : list V) m m' : meq m m' -> holds arr l m -> holds arr l m'.
Proof. intros Q H k x G. rewrite <- Q. apply H, G. Qed.

(** ** threads with disjoint footprints *)
Lemma race_foot (ts : list thread) (code : thread -> list (instr V)) (foot : thread -> addr -> Prop) :
  ForallOrdPairs (fun t u => forall a, foot t a -> foot u a -> False) ts ->
  (forall t x, In t ts -> In x (code t) -> foot t (dst x) /\ forall a, In a (srcs x) -> foot t a) -> race_free (map code ts).
Proof.
  induction 1 as [|t ts H _ IH]; intros F; [constructor|]. cbn [map]. constructor; [|apply IH; intros; apply F; [right|]; assumption].
  apply Forall_forall. intros c Hc. apply in_map_iff in Hc. destruct Hc as (u & <- & Hu). rewrite Forall_forall in H. specialize (H u Hu).
  intros x y Hx Hy. destruct (F t x (or_introl eq_refl) Hx) as [F1 F2]. destruct (F u y (or_intror Hu) Hy) as [F3 F4]. split; [intros E; rewrite E in F1; eauto|]. split; intros I; [apply (H (dst x)); auto|apply (H (dst y)); auto].
Qed.
Lemma fop_tids (R : thread -> thread -> Prop) ts : NoDup (map fst ts) -> (forall t u, In t ts -> In u ts -> fst t <> fst u -> R t u) -> ForallOrdPairs R ts.
Proof.
  induction ts as [|t ts IH]; intros N H; [constructor|]. cbn in N. apply NoDup_cons_iff in N. destruct N as [N1 N2]. constructor; [|apply IH; [exact N2|intros; apply H; try right; assumption]].
  apply Forall_forall. intros u Hu. apply H; [left; reflexivity|right; exact Hu|]. intros E. apply N1. rewrite E. apply in_map, Hu.
Qed.
Lemma nodup_app_disj {X} (a b : list X) : NoDup (a ++ b) -> forall x, In x a -> In x b -> False.
Proof. induction a as [|y a IH]; cbn; intros N x; [contradiction|]. apply NoDup_cons_iff in N. destruct N as [N1 N2]. intros [->|H1] H2; [apply N1, in_app_iff; auto|eapply IH; eauto]. Qed.
Lemma nodup_app_r {X} (a b : list X) : NoDup (a ++ b) -> NoDup b.
Proof. induction a as [|y a IH]; cbn; intros N; [exact N|]. apply NoDup_cons_iff in N. apply IH, N. Qed.
Lemma fop_its (R : thread -> thread -> Prop) ts : NoDup (flat_map snd ts) -> (forall t u, In t ts -> In u ts -> (forall i, In i (snd t) -> In i (snd u) -> False) -> R t u) -> ForallOrdPairs R ts.
Proof.
  induction ts as [|t ts IH]; intros N H; [constructor|]. cbn in N. constructor; [|apply IH; [eapply nodup_app_r, N|intros; apply H; try right; assumption]].
  apply Forall_forall. intros u Hu. apply H; [left; reflexivity|right; exact Hu|]. intros i H1 H2. eapply nodup_app_disj; [exact N|exact H1|]. apply in_flat_map. exists u. auto.
Qed.
(** ** all threads, one after the other *)
Lemma ofold_app {A S} (f : A -> S -> option S) l l' s : ofold f (l ++ l') s = obind (ofold f l s) (ofold f l').
Proof. revert s. induction l as [|x l IH]; intros s; cbn; [reflexivity|]. destruct (f x s); cbn; [apply IH|reflexivity]. Qed.
Lemma seq_run {S} (f : Z * Z -> S -> option S) (R : S -> pmem V -> Prop) (body : Z -> Z -> list (instr V)) (ts : list thread) :
  (forall t i s s' m, In t ts -> In i (snd t) -> f (i, fst t) s = Some s' -> R s m -> R s' (prun (body (fst t) i) m)) ->
  forall s s' m, ofold f (one_by_one ts) s = Some s' -> R s m -> R s' (prun (concat (map (thread_code body) ts)) m).
Proof.
  induction ts as [|t ts IH]; intros H s s' m; [cbn; intros Q; injection Q as <-; auto|].
  change (one_by_one (t :: ts)) with (map (fun i => (i, fst t)) (snd t) ++ one_by_one ts). rewrite ofold_app. cbn [map concat]. rewrite prun_app. intros Q Rm.
  destruct (ofold f (map (fun i => (i, fst t)) (snd t)) s) as [s1|] eqn:E; [|discriminate]. cbn [obind] in Q. apply (IH (fun t' i s s' m Ht => H t' i s s' m (or_intror Ht)) s1 s'); [exact Q|]. clear Q IH.
  assert (G : forall its, incl its (snd t) -> forall s m, ofold f (map (fun i => (i, fst t)) its) s = Some s1 -> R s m -> R s1 (prun (flat_map (body (fst t)) its) m)).
  { induction its as [|i its IH]; intros Hi s0 m0 Q R0; cbn in Q; [injection Q as <-; exact R0|]. destruct (f (i, fst t) s0) as [s2|] eqn:E2; [|discriminate]. cbn [obind flat_map] in *. rewrite prun_app. apply (IH (fun x Hx => Hi x (or_intror Hx)) s2); [exact Q|].
    eapply H; [left; reflexivity|apply Hi; left; reflexivity|exact E2|exact R0]. }
  apply (G (snd t) (incl_refl _) s m E Rm).
Qed.
Lemma par_run {S} (f : Z * Z -> S -> option S) (R : S -> pmem V -> Prop) (body : Z -> Z -> list (instr V)) (ts : list thread) l s s' m :
  (forall s m m', meq m m' -> R s m -> R s m') ->
  (forall t i s s' m, In t ts -> In i (snd t) -> f (i, fst t) s = Some s' -> R s m -> R s' (prun (body (fst t) i) m)) ->
  race_free (map (thread_code body) ts) -> inter (map (thread_code body) ts) l ->
  ofold f (one_by_one ts) s = Some s' -> R s m -> R s' (prun l m).
Proof. intros Rm H RF I Q R0. eapply Rm; [apply meq_sym; exact (inter_run _ _ _ I RF m)|]. eapply seq_run; eassumption. Qed.
End R.

Section ME.
Variable E : Type.
Variables (zero : E) (add addm subm : E -> E -> E) (isz iszm : E -> bool).
Notation nTs := (fun nT : Z => fun ts : list thread => forall t, In t ts -> 0 <= fst t < nT).

(** ** process *)
Lemma getChunk_range scalars S bits i c v : 0 <= bits -> 0 <= c * bits < 8 * S -> 8 * S < 2 ^ 64 - bits -> getChunk scalars S bits i c = Some v -> 0 <= v < 2 ^ bits.
Proof.
  intros Hb Hc HS. unfold getChunk. set (bs := w64 (c * bits)). set (eff := if w64 (S * 8) <? w64 (bs + bits) then w64 (S * 8 - bs) else bits).
  destruct (load64 scalars _) as [x|]; [|discriminate]. cbn [obind]. destruct (Z.leb_spec 31 eff) as [|He]; [rewrite orb_true_r; discriminate|]. destruct (_ || _); [discriminate|]. intros H. injection H as <-.
  assert (Q : 0 <= eff <= bits).
  { unfold eff. assert (Eb : bs = c * bits) by (apply Z.mod_small; lia). unfold w64. rewrite (Z.mod_small (S * 8)), (Z.mod_small (bs + bits)), (Z.mod_small (S * 8 - bs)) by lia. destruct (Z.ltb_spec (S * 8) (bs + bits)); lia. }
  replace (Z.shiftl 1 eff - 1) with (Z.ones eff) by (unfold Z.ones; lia). rewrite Z.land_ones by lia. assert (P := Z.mod_pos_bound (Z.shiftr x (w64 (bs - (if w64 (S - 8) <? bs / 8 then w64 (S - 8) else bs / 8) * 8))) (2 ^ eff) ltac:(apply Z.pow_pos_nonneg; lia)).
  assert (2 ^ eff <= 2 ^ bits) by (apply Z.pow_le_mono_r; lia). lia.
Qed.
Lemma block nT apc t v : 0 <= t < nT -> 0 <= v < apc -> nT * apc <= 2 ^ 64 -> w64 (t * apc + v) = t * apc + v /\ (t * apc + v) / apc = t.
Proof. intros H1 H2 H3. unfold w64. split; [apply Z.mod_small; nia|]. symmetry. apply (Z.div_unique_pos _ _ _ v); lia. Qed.
Section Pc.
Variables (skip : Z -> option bool) (bases : list E) (scalars : list Z) (S bits chunk nT : Z) (ts : list thread).
Hypothesis Hb : 0 <= bits.
Hypothesis Hc : 0 <= chunk * bits < 8 * S.
Hypothesis HS : 8 * S < 2 ^ 64 - bits.
Hypothesis HN : nT * 2 ^ bits <= 2 ^ 64.
Hypothesis Ht : nTs nT ts.
Hypothesis Hd : NoDup (map fst ts).
Notation body := (pc_code E zero addm iszm skip bases scalars S bits (2 ^ bits) chunk).
Lemma pc_race : race_free (map (thread_code body) ts).
Proof.
  apply (race_foot ts (thread_code body) (fun t a => exists k, a = Sh 0 k /\ k / 2 ^ bits = fst t)).
  - apply fop_tids; [exact Hd|]. intros t u _ _ N a (k & -> & H1) (k' & H & H2). injection H as <-. congruence.
  - intros t x Hin Hx. unfold thread_code in Hx. apply in_flat_map in Hx. destruct Hx as (i & _ & Hx). unfold pc_code in Hx. destruct (skip i) as [[|]|]; try contradiction. destruct (aget bases i) as [b|]; [|contradiction]. destruct (getChunk scalars S bits i chunk) as [v|] eqn:Ec; [|contradiction].
    destruct (iszm b); [contradiction|]. destruct (Z.eqb_spec v 0); [contradiction|]. destruct Hx as [<-|[]]. cbn [dst srcs]. apply getChunk_range in Ec; [|exact Hb|exact Hc|exact HS]. destruct (block nT (2 ^ bits) (fst t) v (Ht t Hin) Ec HN) as [E1 E2]. rewrite E1.
    split; [eauto|]. intros a [<-|[]]. eauto.
Qed.
Lemma pc_seq t i accs accs' m : pc_iter E addm iszm skip bases scalars S bits (2 ^ bits) chunk (i, t) accs = Some accs' -> holds 0 accs m -> holds 0 accs' (prun (body t i) m).
Proof.
  unfold pc_iter, pc_code. intros H R. destruct (skip i) as [sk|]; [|discriminate]. cbn [obind] in H. destruct sk; [injection H as <-; exact R|]. destruct (aget bases i) as [b|]; [|discriminate]. cbn [obind] in H.
  destruct (iszm b) eqn:Eb; [injection H as <-; destruct (getChunk _ _ _ _ _); exact R|]. destruct (getChunk scalars S bits i chunk) as [v|]; [|discriminate]. cbn [obind] in H. destruct (v =? 0); [injection H as <-; exact R|].
  set (k := w64 (t * 2 ^ bits + v)) in *. destruct (aget accs k) as [a|] eqn:Ea; [|discriminate]. cbn [obind] in H. rewrite prun_cons. cbn [prun fold_left]. unfold exec1. cbn [dst srcs fn map nth]. rewrite (R k a Ea). eapply holds_put; eassumption.
Qed.
Lemma pc_par l accs accs' m : inter (map (thread_code body) ts) l -> ofold (pc_iter E addm iszm skip bases scalars S bits (2 ^ bits) chunk) (one_by_one ts) accs = Some accs' -> holds 0 accs m -> holds 0 accs' (prun l m).
Proof. intros I. apply (par_run _ (holds 0) body ts l accs accs' m (fun s m m' => holds_meq 0 s m m')); [|apply pc_race|exact I]. intros t i s s' m0 _ _. apply pc_seq. Qed.
End Pc.

(** ** pack *)
Section Pt.
Variables (nT apc : Z) (ts : list thread).
Hypothesis Ha : 0 < apc.
Hypothesis HN : nT * apc <= 2 ^ 64.
Hypothesis Hi : forall t i, In t ts -> In i (snd t) -> 0 <= i < apc.
Hypothesis Hd : NoDup (flat_map snd ts).
Notation body := (pt_code E zero add isz nT apc).
Lemma pt_in i j : 0 <= i < apc -> In j (zrange 1 (Z.to_nat (nT - 1))) -> w64 (j * apc + i) = j * apc + i /\ (j * apc + i) mod apc = i /\ j * apc + i <> i.
Proof.
  intros H1 H2. apply zrange_in in H2. unfold w64. split; [apply Z.mod_small; nia|]. split; [|nia]. rewrite Z.add_comm, Z_mod_plus_full. apply Z.mod_small. lia.
Qed.
Lemma pt_race : race_free (map (thread_code body) ts).
Proof.
  apply (race_foot ts (thread_code body) (fun t a => exists k, a = Sh 0 k /\ In (k mod apc) (snd t))).
  - apply fop_its; [exact Hd|]. intros t u _ _ N a (k & -> & H1) (k' & H & H2). injection H as <-. eauto.
  - intros t x Hin Hx. unfold thread_code in Hx. apply in_flat_map in Hx. destruct Hx as (i & Hii & Hx). unfold pt_code in Hx. apply in_flat_map in Hx. destruct Hx as (j & Hj & Hx).
    assert (B := Hi t i Hin Hii). destruct (pt_in i j B Hj) as (E1 & E2 & E3). rewrite E1 in Hx. assert (E0 : i mod apc = i) by (apply Z.mod_small; lia).
    assert (G1 : exists k, Sh 0 i = Sh 0 k /\ In (k mod apc) (snd t)) by (exists i; rewrite E0; auto). assert (G2 : exists k, Sh 0 (j * apc + i) = Sh 0 k /\ In (k mod apc) (snd t)) by (exists (j * apc + i); rewrite E2; auto).
    destruct Hx as [<-|[<-|[]]]; cbn [dst srcs]; (split; [assumption|]); intros a Q; repeat (destruct Q as [<-|Q]; [assumption|]); contradiction.
Qed.
Lemma pt_seq i accs accs' m : 0 <= i < apc -> pt_iter E zero add isz nT apc i accs = Some accs' -> holds 0 accs m -> forall t, holds 0 accs' (prun (body t i) m).
Proof.
  intros B H R t. unfold pt_iter in H. unfold pt_code. assert (G : forall l, incl l (zrange 1 (Z.to_nat (nT - 1))) -> forall accs m, ofold (pt_inner E zero add isz apc i) l accs = Some accs' -> holds 0 accs m ->
    holds 0 accs' (prun (flat_map (fun j => let k := w64 (j * apc + i) in
    [Ins (Sh 0 i) [Sh 0 i; Sh 0 k] (fun l => if isz (nth 1 l zero) then nth 0 l zero else add (nth 0 l zero) (nth 1 l zero));
     Ins (Sh 0 k) [Sh 0 k] (fun l => if isz (nth 0 l zero) then nth 0 l zero else zero)]) l) m)).
  { clear R H m accs. induction l as [|j l IH]; intros Hl accs m H R; [cbn in H; injection H as <-; exact R|]. cbn [ofold] in H. destruct (pt_inner E zero add isz apc i j accs) as [a1|] eqn:E1; [|discriminate]. cbn [obind flat_map] in *. rewrite prun_app. apply (IH (fun x Hx => Hl x (or_intror Hx)) a1); [exact H|]. clear IH H.
    destruct (pt_in i j B (Hl j (or_introl eq_refl))) as (E2 & _ & E3). unfold pt_inner in E1. rewrite E2 in *. set (k := j * apc + i) in *. cbv zeta. rewrite !prun_cons. cbn [prun fold_left]. unfold exec1 at 2. cbn [dst srcs fn map nth]. unfold exec1. cbn [dst srcs fn map nth].
    destruct (aget accs k) as [x|] eqn:Ek; [|discriminate]. cbn [obind] in E1. rewrite (R k x Ek). destruct (isz x) eqn:Ex.
    - injection E1 as <-. assert (R1 : holds 0 accs (pset m (Sh 0 i) (m (Sh 0 i)))) by (apply holds_same; [exact R|reflexivity]). rewrite (R1 k x Ek), Ex. apply holds_same; [exact R1|apply R1, Ek].
    - destruct (aget accs i) as [a|] eqn:Ei; [|discriminate]. cbn [obind] in E1. destruct (aput accs i (add a x)) as [a2|] eqn:Ep; [|discriminate]. cbn [obind] in E1. rewrite (R i a Ei). assert (R1 := holds_put 0 _ _ _ _ _ R Ep).
      assert (Ek' : aget a2 k = Some x) by (rewrite (aput_get _ _ _ _ Ep); destruct (Z.eqb_spec k i); [congruence|exact Ek]). rewrite (R1 k x Ek'), Ex. eapply holds_put; eassumption. }
  apply (G _ (incl_refl _) accs m H R).
Qed.
Lemma pt_par l accs accs' m : inter (map (thread_code body) ts) l -> ofold (fun it => pt_iter E zero add isz nT apc (fst it)) (one_by_one ts) accs = Some accs' -> holds 0 accs m -> holds 0 accs' (prun l m).
Proof. intros I. apply (par_run _ (holds 0) body ts l accs accs' m (fun s m m' => holds_meq 0 s m m')); [|apply pt_race|exact I]. intros t i s s' m0 H1 H2 H3 H4. eapply pt_seq; [eapply Hi; eassumption|exact H3|exact H4]. Qed.
End Pt.

(** ** reduce *)
Section Rd.
Variables (nd nT : Z) (ts : list thread).
Hypothesis HN : 2 * nd <= 2 ^ 64.
Hypothesis Hi : forall t i, In t ts -> In i (snd t) -> 1 <= i < nd.
Hypothesis Hd : NoDup (flat_map snd ts).
Hypothesis Hd' : NoDup (map fst ts).
Notation body := (rd_code E zero add isz nd).
Lemma rd_in i : 1 <= i < nd -> w64 (nd + i) = nd + i /\ (nd + i) mod nd = i /\ i mod nd = i.
Proof. intros H. unfold w64. split; [apply Z.mod_small; lia|]. split; [|apply Z.mod_small; lia]. rewrite Z.add_comm. rewrite <- (Z.mul_1_l nd) at 1. rewrite Z_mod_plus_full. apply Z.mod_small. lia. Qed.
Lemma fop_and {X} (P Q : X -> X -> Prop) l : ForallOrdPairs P l -> ForallOrdPairs Q l -> ForallOrdPairs (fun x y => P x y /\ Q x y) l.
Proof. induction 1 as [|x l H1 _ IH]; intros H; inversion H; subst; constructor; [|auto]. rewrite Forall_forall in *. auto. Qed.
Lemma fop_imp {X} (P Q : X -> X -> Prop) l : (forall x y, P x y -> Q x y) -> ForallOrdPairs P l -> ForallOrdPairs Q l.
Proof. intros H. induction 1 as [|x l H1 _ IH]; constructor; [|exact IH]. rewrite Forall_forall in *. auto. Qed.
Lemma rd_race : race_free (map (thread_code body) ts).
Proof.
  apply (race_foot ts (thread_code body) (fun t a => (exists k, a = Sh 0 k /\ In (k mod nd) (snd t)) \/ a = Sh 1 (fst t))).
  - apply (fop_imp (fun t u : thread => (forall i, In i (snd t) -> In i (snd u) -> False) /\ fst t <> fst u)).
    + intros t u [N1 N2] a [(k & -> & H1)| ->] [(k' & H & H2)|H]; try discriminate; [injection H as <-; eauto|injection H as H; congruence].
    + apply fop_and; [apply fop_its; [exact Hd|auto]|apply fop_tids; [exact Hd'|auto]].
  - intros t x Hin Hx. unfold thread_code in Hx. apply in_flat_map in Hx. destruct Hx as (i & Hii & Hx). destruct (rd_in i (Hi t i Hin Hii)) as (E1 & E2 & E3). unfold rd_code in Hx. rewrite E1 in Hx.
    assert (G1 : (exists k, Sh 0 i = Sh 0 k /\ In (k mod nd) (snd t)) \/ Sh 0 i = Sh 1 (fst t)) by (left; exists i; rewrite E3; auto).
    assert (G2 : (exists k, Sh 0 (nd + i) = Sh 0 k /\ In (k mod nd) (snd t)) \/ Sh 0 (nd + i) = Sh 1 (fst t)) by (left; exists (nd + i); rewrite E2; auto).
    destruct Hx as [<-|[<-|[<-|[]]]]; cbn [dst srcs]; (split; [auto|]); intros a Q; repeat (destruct Q as [<-|Q]; [auto|]); contradiction.
Qed.
Definition Rrd (s : list E * list E) (m : pmem E) : Prop := holds 0 (fst s) m /\ holds 1 (snd s) m.
Lemma rd_seq t i s s' m : 1 <= i < nd -> rd_iter E zero add isz nd (i, t) s = Some s' -> Rrd s m -> Rrd s' (prun (body t i) m).
Proof.
  intros B H [R0 R1]. destruct s as [accs sall]. cbn [fst snd] in *. unfold rd_iter in H. unfold rd_code. destruct (rd_in i B) as (E1 & _ & _). rewrite E1 in *. set (k := nd + i) in *. assert (Nk : k <> i) by lia. cbv zeta. rewrite !prun_cons. cbn [prun fold_left].
  unfold exec1. cbn [dst srcs fn map nth]. destruct (aget accs k) as [x|] eqn:Ek; [|discriminate]. cbn [obind] in H. rewrite (R0 k x Ek). destruct (isz x) eqn:Ex.
  - injection H as <-. set (m1 := pset m (Sh 0 i) _). assert (A0 : holds 0 accs m1) by (apply holds_same; [exact R0|reflexivity]). assert (A1 : holds 1 sall m1) by (apply holds_other; [exact R1|discriminate]). rewrite (A0 k x Ek), Ex.
    set (m2 := pset m1 (Sh 1 t) _). assert (B0 : holds 0 accs m2) by (apply holds_other; [exact A0|discriminate]). assert (B1 : holds 1 sall m2) by (apply holds_same; [exact A1|reflexivity]). rewrite (B0 k x Ek), Ex.
    split; [apply holds_same; [exact B0|apply B0, Ek]|apply holds_other; [exact B1|discriminate]].
  - destruct (aget accs i) as [a|] eqn:Ei; [|discriminate]. cbn [obind] in H. destruct (aput accs i (add a x)) as [a2|] eqn:Ep; [|discriminate]. cbn [obind] in H. destruct (aget sall t) as [sv|] eqn:Es; [|discriminate]. cbn [obind] in H.
    assert (Ek' : aget a2 k = Some x) by (rewrite (aput_get _ _ _ _ Ep); destruct (Z.eqb_spec k i); [congruence|exact Ek]). rewrite Ek' in H. cbn [obind] in H. destruct (aput sall t (add sv x)) as [s2|] eqn:Eq; [|discriminate]. cbn [obind] in H. destruct (aput a2 k zero) as [a3|] eqn:Er; [|discriminate]. cbn [obind] in H. injection H as <-.
    rewrite (R0 i a Ei). set (m1 := pset m (Sh 0 i) _). assert (A0 : holds 0 a2 m1) by (eapply holds_put; eassumption). assert (A1 : holds 1 sall m1) by (apply holds_other; [exact R1|discriminate]). rewrite (A0 k x Ek'), Ex, (A1 t sv Es).
    set (m2 := pset m1 (Sh 1 t) _). assert (B0 : holds 0 a2 m2) by (apply holds_other; [exact A0|discriminate]). assert (B1 : holds 1 s2 m2) by (eapply holds_put; eassumption). rewrite (B0 k x Ek'), Ex.
    split; [eapply holds_put; eassumption|apply holds_other; [exact B1|discriminate]].
Qed.
Lemma rd_par l s s' m : inter (map (thread_code body) ts) l -> ofold (rd_iter E zero add isz nd) (one_by_one ts) s = Some s' -> Rrd s m -> Rrd s' (prun l m).
Proof.
  intros I. apply (par_run _ Rrd body ts l s s' m); [|intros t i s0 s0' m0 H1 H2; apply rd_seq, (Hi t i H1 H2)|apply rd_race|exact I].
  intros s0 m0 m' Q [H1 H2]. split; eapply holds_meq; eassumption.
Qed.
End Rd.
End ME.

(** ** MSM, slicing of the scalars *)
Section Sl.
Variables (scalars : list Z) (S bits nC nB nP : Z) (ts : list thread).
Hypothesis HC : 0 < nC.
Hypothesis HN : nP * nC <= 2 ^ 64.
Hypothesis Hi : forall t i, In t ts -> In i (snd t) -> 0 <= i < nP.
Hypothesis Hd : NoDup (flat_map snd ts).
Hypothesis Hd' : NoDup (map fst ts).
Notation body := (slice_code scalars S bits nC nB).
Lemma sl_in i j : 0 <= i < nP -> In j (zrange 0 (Z.to_nat nC)) -> w64 (i * nC + j) = i * nC + j /\ (i * nC + j) / nC = i.
Proof. intros H1 H2. apply zrange_in in H2. unfold w64. split; [apply Z.mod_small; nia|]. symmetry. apply (Z.div_unique_pos _ _ _ j); lia. Qed.
Lemma sl_race : race_free (map (thread_code body) ts).
Proof.
  apply (race_foot ts (thread_code body) (fun t a => (exists k, a = Sh 0 k /\ In (k / nC) (snd t)) \/ a = Lo (fst t) 0)).
  - apply (fop_imp (fun t u : thread => (forall i, In i (snd t) -> In i (snd u) -> False) /\ fst t <> fst u)).
    + intros t u [N1 N2] a [(k & -> & H1)| ->] [(k' & H & H2)|H]; try discriminate; [injection H as <-; eauto|injection H as H; congruence].
    + apply fop_and; [apply fop_its; [exact Hd|auto]|apply fop_tids; [exact Hd'|auto]].
  - intros t x Hin Hx. unfold thread_code in Hx. apply in_flat_map in Hx. destruct Hx as (i & Hii & Hx). unfold slice_code in Hx. destruct Hx as [<-|Hx]; [cbn; split; [auto|contradiction]|].
    apply in_flat_map in Hx. destruct Hx as (j & Hj & Hx). destruct (sl_in i j (Hi t i Hin Hii) Hj) as [E1 E2]. rewrite E1 in Hx. destruct (getBucketIndex _ _ _ _ _) as [v|]; [|contradiction].
    assert (G1 : (exists k, Sh 0 (i * nC + j) = Sh 0 k /\ In (k / nC) (snd t)) \/ Sh 0 (i * nC + j) = Lo (fst t) 0) by (left; exists (i * nC + j); rewrite E2; auto).
    destruct Hx as [<-|[<-|[]]]; cbn [dst srcs]; (split; [auto|]); intros a Q; repeat (destruct Q as [<-|Q]; [auto|]); contradiction.
Qed.
Lemma sl_seq t i sl sl' m : slice_iter scalars S bits nC nB i sl = Some sl' -> holds 0 sl m -> holds 0 sl' (prun (body t i) m).
Proof.
  unfold slice_iter, slice_code. intros H R. rewrite prun_cons. unfold exec1 at 1. cbn [dst srcs fn map]. set (m0 := pset m (Lo t 0) 0). assert (R0 : holds 0 sl m0) by (apply holds_other; [exact R|discriminate]). assert (C0 : m0 (Lo t 0%nat) = 0) by apply pset_same.
  destruct (ofold _ _ (0, sl)) as [[c s']|] eqn:Q; [|discriminate]. cbn [obind snd] in H. injection H as <-. remember 0 as c0 in C0, Q at 2. clear Heqc0. revert R0 C0 Q. generalize m0. intros m1. clear m m0 R. revert m1 sl c0.
  induction (zrange 0 (Z.to_nat nC)) as [|j l IH]; intros m sl c0 R C Q; [cbn in Q; injection Q as <- <-; exact R|].
  cbn [ofold] in Q. destruct (slice_step scalars S bits nC nB i j (c0, sl)) as [[c1 s1]|] eqn:E1; [|discriminate]. cbn [obind flat_map] in *. rewrite prun_app. unfold slice_step in E1. destruct (getBucketIndex scalars S bits i j) as [v|]; [|discriminate]. cbn [obind] in E1. cbv zeta in E1.
  set (idx := s32 (v + c0)) in *. rewrite !prun_cons. cbn [prun fold_left]. unfold exec1. cbn [dst srcs fn map nth]. rewrite C. rewrite (pset_other _ m (Sh 0 (w64 (i * nC + j)))) by discriminate. rewrite C. fold idx. cbv zeta.
  destruct (nB <=? w64 idx); (destruct (aput sl _ _) as [s2|] eqn:Ep; [|discriminate]); cbn [obind] in E1; injection E1 as <- <-;
    (eapply IH; [| |exact Q]; [apply holds_other; [|discriminate]; eapply holds_put; eassumption|apply pset_same]).
Qed.
Lemma sl_par l sl sl' m : inter (map (thread_code body) ts) l -> ofold (fun it => slice_iter scalars S bits nC nB (fst it)) (one_by_one ts) sl = Some sl' -> holds 0 sl m -> holds 0 sl' (prun l m).
Proof. intros I. apply (par_run _ (holds 0) body ts l sl sl' m (fun s m m' => holds_meq 0 s m m')); [|apply sl_race|exact I]. intros t i s s' m0 _ _. apply sl_seq. Qed.
End Sl.

(** ** MSM, the chunks *)
Section Ch.
Variable E : Type.
Variables (zero : E) (add addm subm : E -> E -> E).
Variables (bases : list E) (sliced : list Z) (nC nB nP nT : Z) (ts : list thread).
Hypothesis HB : 0 < nB.
Hypothesis HN : nT * nB <= 2 ^ 64.
Hypothesis Hs : forall k v, aget sliced k = Some v -> - nB <= v <= nB.
Hypothesis Ht : forall t, In t ts -> 0 <= fst t < nT.
Hypothesis Hd : NoDup (flat_map snd ts).
Hypothesis Hd' : NoDup (map fst ts).
Notation body := (chunk_code E zero add addm subm bases sliced nC nB nP).
Lemma sum_code_in th base k x : In x (sum_code E zero add th base k) -> (dst x = Lo th 0 \/ dst x = Lo th 1) /\ forall a, In a (srcs x) -> a = Lo th 0 \/ a = Lo th 1 \/ exists i, (i < k)%nat /\ a = Sh 0 (base + Z.of_nat i).
Proof.
  induction k as [|k IH]; cbn [sum_code]; [contradiction|]. intros [<-|[<-|H]].
  - cbn. split; [auto|]. intros a [<-|[<-|[]]]; [auto|]. right. right. exists k. split; [lia|reflexivity].
  - cbn. split; [auto|]. intros a [<-|[<-|[]]]; auto.
  - destruct (IH H) as [H1 H2]. split; [exact H1|]. intros a Ha. destruct (H2 a Ha) as [->|[->|(i & Q & ->)]]; auto. right. right. exists i. split; [lia|reflexivity].
Qed.
Lemma s32_le x : 0 <= x -> s32 x <= x.
Proof. intros H. unfold s32. destruct (Z.ltb_spec (x mod 2 ^ 32) (2 ^ 31)); [apply Z.mod_le; lia|]. assert (x mod 2 ^ 32 <= x) by (apply Z.mod_le; lia). lia. Qed.
Lemma ch_race : race_free (map (thread_code body) ts).
Proof.
  apply (race_foot ts (thread_code body) (fun t a => (exists k, a = Sh 0 k /\ k / nB = fst t) \/ (exists j, a = Sh 1 j /\ In j (snd t)) \/ exists x, a = Lo (fst t) x)).
  - apply (fop_imp (fun t u : thread => (forall i, In i (snd t) -> In i (snd u) -> False) /\ fst t <> fst u)).
    + intros t u [N1 N2] a [(k & -> & H1)|[(j & -> & H1)|(x & ->)]] [(k' & H & H2)|[(j' & H & H2)|(y & H)]]; try discriminate; injection H as H; try subst; eauto; congruence.
    + apply fop_and; [apply fop_its; [exact Hd|auto]|apply fop_tids; [exact Hd'|auto]].
  - intros t x Hin Hx. unfold thread_code in Hx. apply in_flat_map in Hx. destruct Hx as (j & Hj & Hx). unfold chunk_code in Hx. assert (B := Ht t Hin).
    assert (Eb : w64 (fst t * nB) = fst t * nB) by (apply Z.mod_small; nia). rewrite Eb in Hx. cbv zeta in Hx.
    assert (G0 : forall v, 0 <= v < nB -> (exists k, Sh 0 (fst t * nB + v) = Sh 0 k /\ k / nB = fst t) \/ (exists j, Sh 0 (fst t * nB + v) = Sh 1 j /\ In j (snd t)) \/ exists x, Sh 0 (fst t * nB + v) = Lo (fst t) x).
    { intros v Hv. left. eexists. split; [reflexivity|]. symmetry. apply (Z.div_unique_pos _ _ _ v); lia. }
    apply in_app_iff in Hx. destruct Hx as [Hx|Hx]; [|apply in_app_iff in Hx; destruct Hx as [Hx|Hx]; [|apply in_app_iff in Hx; destruct Hx as [Hx|Hx]; [|apply in_app_iff in Hx; destruct Hx as [Hx|Hx]]]].
    + apply in_map_iff in Hx. destruct Hx as (i & <- & Hii). apply zrange_in in Hii. cbn [dst srcs]. split; [apply G0; lia|contradiction].
    + apply in_flat_map in Hx. destruct Hx as (i & _ & Hx). unfold point_code in Hx. destruct (aget sliced _) as [idx|] eqn:Es; [|contradiction]. destruct (aget bases i); [|contradiction]. apply Hs in Es.
      destruct (Z.ltb_spec 0 idx); [|destruct (Z.ltb_spec idx 0); [|contradiction]]; destruct Hx as [<-|[]]; cbn [dst srcs]; (split; [apply G0; lia|intros a [<-|[]]; apply G0; lia]).
    + destruct Hx as [<-|[<-|[]]]; cbn [dst srcs]; (split; [eauto|]); intros a [<-|[]]; [apply G0; lia|eauto].
    + apply sum_code_in in Hx. destruct Hx as [H1 H2]. split; [destruct H1 as [->| ->]; eauto|]. intros a Ha. destruct (H2 a Ha) as [->|[->|(i & Q & ->)]]; eauto. apply G0.
      assert (s32 (nB - 2) + 1 <= nB); [|lia]. destruct (Z.eq_dec nB 1) as [->|]; [vm_compute; discriminate|]. assert (L := s32_le (nB - 2) ltac:(lia)). lia.
    + destruct Hx as [<-|[]]. cbn [dst srcs]. split; [eauto|]. intros a [<-|[]]. eauto.
Qed.
Definition Rch (s : list E * list E) (m : pmem E) : Prop := holds 0 (fst s) m /\ holds 1 (snd s) m.
Lemma clear_seq (base : Z) l bm bm' ch m : ofold (clear_step E zero base) l bm = Some bm' -> Rch (bm, ch) m -> Rch (bm', ch) (prun (map (fun i => Ins (Sh 0 (base + i)) [] (fun _ => zero)) l) m).
Proof.
  revert bm m. induction l as [|i l IH]; intros bm m H [R0 R1]; [cbn in H; injection H as <-; split; assumption|]. cbn [ofold] in H. destruct (clear_step E zero base i bm) as [b1|] eqn:E1; [|discriminate]. cbn [obind map] in *. rewrite prun_cons. apply (IH b1); [exact H|].
  unfold exec1. cbn [dst srcs fn map]. split; cbn [fst snd] in *; [eapply holds_put; eassumption|apply holds_other; [exact R1|discriminate]].
Qed.
Lemma point_seq j (base : Z) l bm bm' ch m : ofold (point_step E addm subm bases sliced nC j base) l bm = Some bm' -> Rch (bm, ch) m -> Rch (bm', ch) (prun (flat_map (point_code E zero addm subm bases sliced nC j base) l) m).
Proof.
  revert bm m. induction l as [|i l IH]; intros bm m H [R0 R1]; [cbn in H; injection H as <-; split; assumption|]. cbn [ofold] in H. destruct (point_step E addm subm bases sliced nC j base i bm) as [b1|] eqn:E1; [|discriminate]. cbn [obind flat_map] in *. rewrite prun_app. apply (IH b1); [exact H|]. clear IH H.
  cbn [fst snd] in *. unfold point_step in E1. unfold point_code. destruct (aget sliced _) as [idx|]; [|discriminate]. cbn [obind] in E1.
  destruct (0 <? idx).
  - destruct (aget bm (base + (idx - 1))) as [a|] eqn:Ea; [|discriminate]. cbn [obind] in E1. destruct (aget bases i) as [p|]; [|discriminate]. cbn [obind] in E1. rewrite prun_cons. cbn [prun fold_left]. unfold exec1. cbn [dst srcs fn map nth]. rewrite (R0 _ _ Ea).
    split; cbn [fst snd]; [eapply holds_put; eassumption|apply holds_other; [exact R1|discriminate]].
  - destruct (idx <? 0).
    + destruct (aget bm (base + (- idx - 1))) as [a|] eqn:Ea; [|discriminate]. cbn [obind] in E1. destruct (aget bases i) as [p|]; [|discriminate]. cbn [obind] in E1. rewrite prun_cons. cbn [prun fold_left]. unfold exec1. cbn [dst srcs fn map nth]. rewrite (R0 _ _ Ea).
      split; cbn [fst snd]; [eapply holds_put; eassumption|apply holds_other; [exact R1|discriminate]].
    + injection E1 as <-. destruct (aget bases i); split; assumption.
Qed.
Lemma sum_seq th (base : Z) k bm ch t tmp r m : sum_loop E add bm base k t tmp = Some r -> Rch (bm, ch) m -> m (Lo th 0%nat) = t -> m (Lo th 1%nat) = tmp ->
  let m' := prun (sum_code E zero add th base k) m in Rch (bm, ch) m' /\ m' (Lo th 0%nat) = r.
Proof.
  revert t tmp m. induction k as [|k IH]; intros t tmp m H [R0 R1] H0 H1; cbn [sum_loop sum_code] in *; [injection H as <-; split; [split; assumption|exact H0]|].
  destruct (aget bm (base + Z.of_nat k)) as [b|] eqn:Eb; [|discriminate]. cbn [obind] in H. rewrite !prun_cons. cbn [fst snd] in *. unfold exec1. cbn [dst srcs fn map nth]. rewrite (R0 _ _ Eb), H1. set (m1 := pset m (Lo th 1) (add tmp b)).
  assert (A0 : m1 (Lo th 0%nat) = t) by (unfold m1; rewrite pset_other by congruence; exact H0). assert (A1 : m1 (Lo th 1%nat) = add tmp b) by apply pset_same. rewrite A0, A1.
  apply (IH _ _ _ H); [split; cbn [fst snd]; repeat (apply holds_other; [|discriminate]); assumption|apply pset_same|rewrite pset_other by congruence; exact A1].
Qed.
Lemma ch_seq th j s s' m : chunk_iter E zero add addm subm bases sliced nC nB nP (j, th) s = Some s' -> Rch s m -> Rch s' (prun (body th j) m).
Proof.
  destruct s as [bm ch]. unfold chunk_iter, chunk_code. cbv zeta. set (base := w64 (th * nB)). intros H R.
  destruct (ofold (clear_step E zero base) _ bm) as [b1|] eqn:E1; [|discriminate]. cbn [obind] in H. destruct (ofold (point_step E addm subm bases sliced nC j base) _ b1) as [b2|] eqn:E2; [|discriminate]. cbn [obind] in H.
  destruct (aget b2 (base + (nB - 1))) as [t|] eqn:Et; [|discriminate]. cbn [obind] in H. destruct (sum_loop E add b2 base _ t t) as [r|] eqn:Er; [|discriminate]. cbn [obind] in H. destruct (aput ch j r) as [c2|] eqn:Ep; [|discriminate]. cbn [obind] in H. injection H as <-.
  rewrite !prun_app. assert (R1 := clear_seq base _ _ _ _ _ E1 R). set (m1 := prun _ m) in *. assert (R2 := point_seq j base _ _ _ _ _ E2 R1). set (m2 := prun _ m1) in *.
  rewrite !prun_two, prun_one. unfold exec1 at 2 3. cbn [dst srcs fn map nth]. assert (Q : m2 (Sh 0 (base + (nB - 1))) = t) by (apply (proj1 R2), Et). rewrite Q. set (m3 := pset m2 (Lo th 0) t).
  assert (A0 : m3 (Lo th 0%nat) = t) by apply pset_same. rewrite A0. set (m4 := pset m3 (Lo th 1) t).
  assert (R4 : Rch (b2, ch) m4) by (destruct R2; split; repeat (apply holds_other; [|discriminate]); assumption).
  destruct (sum_seq th base _ _ _ _ _ _ m4 Er R4 ltac:(unfold m4; rewrite pset_other by congruence; exact A0) ltac:(apply pset_same)) as [[S0 S1] S2]. set (m5 := prun _ m4) in *.
  unfold exec1. cbn [dst srcs fn map nth]. rewrite S2. split; cbn [fst snd] in *; [apply holds_other; [exact S0|discriminate]|eapply holds_put; eassumption].
Qed.
Lemma ch_par l s s' m : inter (map (thread_code body) ts) l -> ofold (chunk_iter E zero add addm subm bases sliced nC nB nP) (one_by_one ts) s = Some s' -> Rch s m -> Rch s' (prun l m).
Proof.
  intros I. apply (par_run _ Rch body ts l s s' m); [|intros t i s0 s0' m0 _ _; apply ch_seq|apply ch_race|exact I].
  intros s0 m0 m' Q [H1 H2]. split; eapply holds_meq; eassumption.
Qed.
End Ch.

(** ** the hypothesis on the slices *)
Lemma lput_length {X} : forall (l l' : list X) i x, lput l i x = Some l' -> length l' = length l.
Proof. induction l as [|y l IH]; intros l' i x H; [discriminate|]. destruct i as [|i]; cbn in H; [injection H as <-; reflexivity|]. destruct (lput l i x) as [l1|] eqn:E; [|discriminate]. injection H as <-. cbn. f_equal. eapply IH, E. Qed.
Lemma aput_length {X} (l l' : list X) k x : aput l k x = Some l' -> length l' = length l.
Proof. unfold aput. destruct (k <? 0); [discriminate|]. apply lput_length. Qed.
Lemma ofold_keep {X St Y} (f : X -> St -> option St) (g : St -> Y) l s s' : (forall x s s', f x s = Some s' -> g s' = g s) -> ofold f l s = Some s' -> g s' = g s.
Proof. intros H. revert s. induction l as [|x l IH]; intros s Q; cbn in Q; [injection Q as <-; reflexivity|]. destruct (f x s) as [s1|] eqn:E; [|discriminate]. cbn in Q. rewrite (IH _ Q). eapply H, E. Qed.
Lemma sliced_range scalars S n bits sched sliced sl : bytes_ok scalars -> 8 <= S < 2 ^ 28 -> Z.of_nat (length scalars) = n * S -> 0 <= n < 2 ^ 31 -> 1 <= bits <= 16 ->
  let nC := calcChunkCount S bits in let nB := calcBucketCount bits in
  Permutation sched (zrange 0 (Z.to_nat n)) -> Z.of_nat (length sliced) = nC * n ->
  ofold (slice_iter scalars S bits nC nB) sched sliced = Some sl -> forall k v, aget sl k = Some v -> - nB <= v < nB.
Proof.
  intros H1 H2 H3 H4 H5 nC nB HP HL HO k v G. assert (EB : nB = 2 ^ (bits - 1)) by (apply Z.shiftl_1_l).
  destruct (slices_ok scalars S n bits H1 H2 H3 H4 H5 sched sliced HP HL) as (sl1 & Q & OK). fold nC in Q, OK. rewrite <- EB in Q. rewrite Q in HO. injection HO as ->.
  assert (L : length sl = length sliced).
  { revert Q. apply (ofold_keep _ (@length Z)). intros i s s' Q. unfold slice_iter in Q. destruct (ofold _ _ (0, s)) as [[c s1]|] eqn:E; [|discriminate]. cbn in Q. injection Q as <-.
    revert E. apply (ofold_keep _ (fun st : Z * list Z => length (snd st))). intros j [c0 s0] [c2 s2] E. unfold slice_step in E. destruct (getBucketIndex _ _ _ _ _); [|discriminate]. cbn [obind] in E. cbv zeta in E.
    destruct (nB <=? _); (destruct (aput s0 _ _) as [s3|] eqn:Ea; [|discriminate]); cbn [obind] in E; injection E as <- <-; cbn [snd]; eapply aput_length, Ea. }
  assert (0 <= k < nC * n). { split; [eapply aget_nonneg, G|]. unfold aget in G. destruct (Z.ltb_spec k 0); [discriminate|]. assert (N : nth_error sl (Z.to_nat k) <> None) by congruence. apply nth_error_Some in N. lia. }
  destruct (nC_def scalars S bits H2 H5) as [C1 _]. fold nC in C1.
  assert (Ek : k = (k / nC) * nC + k mod nC) by (pose proof (Z.div_mod k nC ltac:(lia)); lia). assert (M := Z.mod_pos_bound k nC ltac:(lia)). assert (D : 0 <= k / nC < n) by (split; [apply Z.div_pos; lia|apply Z.div_lt_upper_bound; lia]).
  pose proof (OK _ _ D M) as G'. fold nC in G'. rewrite <- Ek, G in G'. injection G' as ->. rewrite EB. apply (sd_b scalars S bits H5).
Qed.
