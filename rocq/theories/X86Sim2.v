(** The Montgomery routines: their code simulates the commands of the templates. *)
From Coq Require Import ZArith List Bool Arith Lia.
From Verif Require Import Limbs LimbsFacts X86 X86Gen X86Sim.
Import ListNotations.
Open Scope Z_scope.

Section Sim2.
Variable lay : sym -> Z.
Variable n : nat.
Variable opt : bool.
Variable F : Z.
Variable okaddr : Z -> bool.
Hypothesis Hn : (1 <= n)%nat.
Variable nd : nat.
Hypothesis End : nd = neededFor n opt.
Hypothesis HF : F mod 8 = 0.
Hypothesis HF0 : 0 <= F.
Hypothesis HFB : F + 8 * Z.of_nat (nd - nu nd) <= B.
Hypothesis Hok : forall x, okaddr x = true -> ~ frame nd F x.
Notation S' := (SIM lay nd F okaddr).

Lemma bcases (b : bool) : b = true \/ b = false. Proof. destruct b; auto. Qed.
Ltac dopt En := let E := fresh "Eo" in destruct (bcases opt) as [E|E]; rewrite E in En |- *; cbn [orb].
Lemma Hnd : (6 <= nd)%nat.
Proof. rewrite End. unfold neededFor. lia. Qed.
Lemma nd_eq : nd = if opt then (5 + n)%nat else (6 + n)%nat.
Proof. rewrite End. unfold neededFor. destruct opt; lia. Qed.
Lemma SIM_seq (K : nat -> cur) f m : forall s, (forall j, (s <= j < s + m)%nat -> S' (K j) (f j) (K (S j))) -> S' (K s) (flat_map f (seq s m)) (K (s + m)%nat).
Proof.
  induction m as [|m IH]; intros s H; cbn [seq flat_map]; [rewrite Nat.add_0_r; apply SIM_nil|].
  eapply SIM_app; [apply H; lia|]. replace (s + S m)%nat with (S s + m)%nat by lia. apply IH. intros j Hj. apply H. lia.
Qed.
Lemma map_flat_map {A C} (f : A -> C) l : map f l = flat_map (fun x => [f x]) l.
Proof. induction l as [|x l IH]; cbn; [reflexivity|]. rewrite IH. reflexivity. Qed.
Lemma low_ok i : (i <= 5)%nat -> (i < nu nd)%nat.
Proof. intros H. pose proof (nu_ge nd Hnd). lia. Qed.
Lemma mod2_ok i : (i mod 2 < nu nd)%nat.
Proof. apply low_ok. pose proof (Nat.mod_upper_bound i 2). lia. Qed.
Lemma low_nd i : (i < nu nd)%nat -> (i < nd)%nat.
Proof. pose proof (nu_nd nd Hnd). lia. Qed.
Lemma addk_low k i : (i <= 5)%nat -> addk nd k i = k.
Proof. intros H. unfold addk. rewrite ltb_t by (apply low_ok, H). reflexivity. Qed.
Lemma addk_addk k i : addk nd (addk nd k i) i = addk nd k i.
Proof. unfold addk. destruct (i <? nu nd)%nat eqn:E; reflexivity. Qed.
(** the reference cannot be the one in the register *)
Lemma isref_addk k i j : i <> j -> wfk nd k -> ((i < nu nd)%nat -> isref k j = false) -> isref (addk nd k i) j = false.
Proof. intros H W H'. unfold addk. destruct (Nat.ltb_spec i (nu nd)) as [L|L]; [auto|]. cbn. apply Nat.eqb_neq. exact H. Qed.
Lemma isref_lowk k j : wfk nd k -> (j < nu nd)%nat -> isref k j = false.
Proof. intros. apply (isref_low nd F Hnd HFB); assumption. Qed.
Lemma wfk_unspilled k : wfk nd k -> spill nd = false -> k = None.
Proof. destruct k as [[i b]|]; cbn; [|reflexivity]. intros [-> _]. discriminate. Qed.
Lemma nu_cases : spill nd = false /\ nu nd = nd /\ (nd <= 11)%nat \/ spill nd = true /\ nu nd = 10%nat /\ (12 <= nd)%nat.
Proof. unfold nu. unfold spill. destruct (Nat.ltb_spec 11 nd); [right|left]; lia. Qed.
Lemma isref_below k i j : wfk nd k -> isref k (nu nd) = false -> (i < nu nd)%nat -> (j <= S i)%nat -> isref k j = false.
Proof. intros W H Hi Hj. destruct (Nat.eq_dec j (nu nd)) as [->|D]; [exact H|]. apply isref_lowk; [exact W|lia]. Qed.
Lemma wA k i : wfk nd k -> (i < nd)%nat -> wfk nd (addk nd k i).
Proof. exact (wfk_addk nd F Hnd HFB k i). Qed.
Lemma t_eq : t = 4%nat. Proof. reflexivity. Qed.
Ltac side := first [exact Hnd|exact HF|exact HF0|exact HFB|exact Hok].
Lemma sMovr k r x : wfk nd k -> named r -> match x with AV i => (i < nu nd)%nat | _ => src_ok x end -> S' k [Op Imov [AR r; x]] k.
Proof. intros. apply S_movr; try side; assumption. Qed.
Lemma sMulxq k a i : wfk nd k -> (a < nu nd)%nat -> (i < nu nd)%nat -> S' k [Op Imulx [AV a; AR RDX; AV i]] k.
Proof. intros. apply S_mulxq; try side; assumption. Qed.
Lemma sXor k i : wfk nd k -> (i < nu nd)%nat -> S' k [Op Ixor [AV i; AV i]] k.
Proof. intros. apply S_xor; try side; assumption. Qed.
Lemma sMovm k i s k' : wfk nd k -> (i < nd)%nat -> mem_arg s -> k' = addk nd k i -> S' k [Op Imov [AV i; s]] k'.
Proof. intros W H M ->. apply S_movm; try side; assumption. Qed.
Lemma sSubm x k i s k' : wfk nd k -> (i < nd)%nat -> mem_arg s -> k' = addk nd k i -> S' k [Op (if x : bool then Isub else Isbb) [AV i; s]] k'.
Proof. intros W H M ->. apply S_subm; try side; assumption. Qed.
Lemma sCmp k i s : wfk nd k -> (i < nd)%nat -> mem_arg s -> S' k [Op Icmp [AV i; s]] (ldk nd k i).
Proof. intros. apply S_cmp; try side; assumption. Qed.
Lemma sTest k i : wfk nd k -> (i < nd)%nat -> S' k [Op Itest [AV i; AV i]] (ldk nd k i).
Proof. intros. apply S_test; try side; assumption. Qed.
Lemma sOut k i s : wfk nd k -> (i < nd)%nat -> mem_arg s -> S' k [Op Imov [s; AV i]] (ldk nd k i).
Proof. intros. apply S_out; try side; assumption. Qed.
Lemma sJump k c l : clean k -> S' k [Jump c l] k.
Proof. intros. apply S_jump; try side; assumption. Qed.
Lemma sFlush k rm : wfk nd k -> S' k [Flush rm] (if rm then None else cleank k).
Proof. intros. apply S_flush; try side; assumption. Qed.
Lemma sLabel k l : wfk nd k -> clean k -> S' k [Label l] None.
Proof. intros. apply S_label; try side; assumption. Qed.
Lemma wL k i : wfk nd k -> (i < nd)%nat -> wfk nd (ldk nd k i).
Proof. intros. apply (wfk_ldk nd F Hnd HFB); assumption. Qed.
Lemma sAdd x k a b k' : wfk nd k -> (a < nd)%nat -> (b < nd)%nat -> a <> b -> ((a < nu nd)%nat -> isref k b = false) -> k' = addk nd k a ->
  S' k [Op (if x : bool then Iadcx else Iadox) [AV a; AV b]] k'.
Proof.
  intros W Ha Hb D H ->. apply S_add; try assumption; try side. destruct (Nat.lt_ge_cases a (nu nd)) as [L|L]; [left; auto|right; exact L].
Qed.
Lemma sMov k i k' : wfk nd k -> (i < nd)%nat -> isref k i = false -> k' = k -> S' k [Op Imov [AV i; AV 3]] k'.
Proof. intros W Hi H ->. apply S_movz; try side; try assumption; apply low_ok; lia. Qed.
Lemma sMulx k a l s k' : wfk nd k -> (a < nu nd)%nat -> (l < nd)%nat -> src_ok s -> k' = addk nd k l -> S' k [Op Imulx [AV a; AV l; s]] k'.
Proof. intros W Ha Hl Hs ->. apply S_mulx; try side; assumption. Qed.

Definition endk (k : cur) := addk nd k (nd - 2).
Lemma sim_second k : wfk nd k -> isref k (nu nd) = false -> S' k (secondLoop n opt) (endk k).
Proof.
  intros W H0. unfold secondLoop, endk. pose proof nd_eq as En. assert (Hnd' : (n + 5 <= nd)%nat) by (rewrite En; destruct opt; lia).
  pose proof (mod2_ok) as M2. pose proof (fun i => low_nd _ (M2 i)) as M2'.
  eapply SIM_app; [|eapply SIM_app; [|eapply SIM_app]].
  - eapply SIM_cons; [apply sMovr with (r := RDX); [exact W|right; left; reflexivity|apply low_ok; lia]|].
    eapply SIM_cons; [apply sMulxq; [exact W|apply low_ok; lia|apply low_ok; rewrite t_eq; lia]|].
    eapply SIM_cons; [apply sMulx with (k' := k); [exact W|apply low_ok; lia|apply low_nd, low_ok; lia|exact Logic.I|symmetry; apply addk_low; lia]|].
    apply (sAdd true) with (k' := k); [exact W|apply low_nd, low_ok; lia|rewrite t_eq; lia|rewrite t_eq; lia| |symmetry; apply addk_low; lia].
    intros _. apply isref_lowk; [exact W|]. apply low_ok. rewrite t_eq. lia.
  - instantiate (1 := addk nd k (t + n - 2)).
    assert (X : S' (addk nd k (t + 1 - 2)) (flat_map (fun j => [Op Imulx [AV ((j + 1) mod 2); AV (t + j - 1); mq j]; Op Iadcx [AV (t + j - 1); AV (j mod 2)]; Op Iadox [AV (t + j - 1); AV (t + j)]]) (seq 1 (n - 1))) (addk nd k (t + (1 + (n - 1)) - 2))).
    { apply (SIM_seq (fun j => addk nd k (t + j - 2))). intros j Hj. set (k1 := addk nd k (t + j - 2)). assert (W1 : wfk nd k1) by (apply wA; [exact W|rewrite t_eq; lia]).
      assert (E1 : addk nd k1 (t + j - 1) = addk nd k (t + S j - 2)).
      { unfold k1. replace (t + S j - 2)%nat with (t + j - 1)%nat by lia. unfold addk. destruct (Nat.ltb_spec (t + j - 1) (nu nd)); [|reflexivity]. rewrite ltb_t by (rewrite t_eq in *; lia). reflexivity. }
      eapply SIM_cons; [apply sMulx with (k' := addk nd k1 (t + j - 1)); [exact W1|apply M2|rewrite t_eq; lia|exact Logic.I|reflexivity]|].
      assert (W2 : wfk nd (addk nd k1 (t + j - 1))) by (apply wA; [exact W1|rewrite t_eq; lia]).
      eapply SIM_cons; [apply (sAdd true) with (k' := addk nd k1 (t + j - 1)); [exact W2|rewrite t_eq; lia|apply M2'| | |symmetry; apply addk_addk]|].
      - pose proof (Nat.mod_upper_bound j 2). rewrite t_eq. lia.
      - intros _. apply isref_lowk; [exact W2|apply M2].
      - apply (sAdd false); [exact W2|rewrite t_eq; lia|rewrite t_eq; lia|rewrite t_eq; lia| |rewrite addk_addk; symmetry; exact E1].
        intros L. rewrite E1. unfold addk. rewrite ltb_t by (rewrite t_eq in *; lia). apply (isref_below k (t + j - 1)); [exact W|exact H0|exact L|lia]. }
    rewrite (addk_low k (t + 1 - 2)) in X by (rewrite t_eq; lia). replace (t + (1 + (n - 1)) - 2)%nat with (t + n - 2)%nat in X by lia. exact X.
  - set (k1 := addk nd k (t + n - 2)). assert (W1 : wfk nd k1) by (apply wA; [exact W|rewrite t_eq; lia]).
    assert (I1 : isref k1 (t + n - 1) = false).
    { unfold k1. apply isref_addk; [rewrite t_eq; lia|exact W|]. intros L. apply (isref_below k (t + n - 2)); [exact W|exact H0|exact L|lia]. }
    eapply SIM_cons; [apply sMov; [exact W1|rewrite t_eq; lia|exact I1|reflexivity]|].
    assert (E1 : addk nd k1 (t + n - 1) = addk nd k (t + n - 1)).
    { unfold k1, addk. destruct (Nat.ltb_spec (t + n - 1) (nu nd)); [|reflexivity]. rewrite ltb_t by (rewrite t_eq in *; lia). reflexivity. }
    eapply SIM_cons; [apply (sAdd true) with (k' := addk nd k (t + n - 1)); [exact W1|rewrite t_eq; lia|apply M2'| | |symmetry; exact E1]|].
    + pose proof (Nat.mod_upper_bound n 2). rewrite t_eq. lia.
    + intros _. apply isref_lowk; [exact W1|apply M2].
    + apply (sAdd false); [apply wA; [exact W|rewrite t_eq; lia]|rewrite t_eq; lia|rewrite t_eq; lia|rewrite t_eq; lia| |reflexivity].
      intros L. apply isref_addk; [rewrite t_eq; lia|exact W|]. intros _. apply (isref_below k (t + n - 1)); [exact W|exact H0|exact L|lia].
  - rewrite addk_addk. dopt En.
    + replace (nd - 2)%nat with (t + n - 1)%nat by (rewrite En, t_eq; lia). apply SIM_nil.
    + replace (nd - 2)%nat with (t + n)%nat by (rewrite En, t_eq; lia).
      set (k1 := addk nd k (t + n - 1)). assert (W1 : wfk nd k1) by (apply wA; [exact W|rewrite t_eq; lia]).
      assert (E1 : addk nd k1 (t + n) = addk nd k (t + n)).
      { unfold k1, addk. destruct (Nat.ltb_spec (t + n) (nu nd)); [|reflexivity]. rewrite ltb_t by (rewrite t_eq in *; lia). reflexivity. }
      assert (I1 : isref k1 (t + n) = false).
      { unfold k1. apply isref_addk; [rewrite t_eq; lia|exact W|]. intros L. apply (isref_below k (t + n - 1)); [exact W|exact H0|exact L|rewrite t_eq; lia]. }
      eapply SIM_cons; [apply sMov; [exact W1|rewrite t_eq; lia|exact I1|reflexivity]|].
      eapply SIM_cons; [apply (sAdd true) with (k' := addk nd k (t + n)); [exact W1|rewrite t_eq; lia|apply low_nd, low_ok; lia|rewrite t_eq; lia|intros _; apply isref_lowk; [exact W1|apply low_ok; lia]|symmetry; exact E1]|].
      apply (sAdd false); [apply wA; [exact W|rewrite t_eq; lia]|rewrite t_eq; lia|rewrite t_eq, En; lia|rewrite t_eq; lia| |symmetry; apply addk_addk].
      intros L. apply isref_addk; [rewrite t_eq; lia|exact W|]. intros _. apply (isref_below k (t + n)); [exact W|exact H0|exact L|rewrite t_eq; lia].
Qed.

Lemma sim_clear k : wfk nd k -> isref k (nd - 1) = false -> S' k (clearTop n opt) k.
Proof.
  intros W H. pose proof Hnd. unfold clearTop. pose proof nd_eq as En. dopt En.
  - replace (t + n)%nat with (nd - 1)%nat by (rewrite En, t_eq; lia). apply sMov; [exact W|lia|exact H|reflexivity].
  - replace (t + n + 1)%nat with (nd - 1)%nat by (rewrite En, t_eq; lia). apply sMov; [exact W|lia|exact H|reflexivity].
Qed.
Lemma addk_trans k i j : (i <= j)%nat -> addk nd (addk nd k i) j = addk nd k j.
Proof. intros H. unfold addk. destruct (Nat.ltb_spec j (nu nd)); [|reflexivity]. rewrite ltb_t by lia. reflexivity. Qed.
Lemma sim_first k first b : wfk nd k -> src_ok first -> (forall j, src_ok (b j)) -> k = None ->
  S' k (firstRow n opt first b) (addk nd k (nd - 1)).
Proof.
  intros W Hf Hb Hk. unfold firstRow. pose proof nd_eq as En. assert (Hnd' : (n + 5 <= nd)%nat) by (rewrite En; destruct opt; lia).
  pose proof (mod2_ok) as M2. pose proof (fun i => low_nd _ (M2 i)) as M2'.
  assert (Hr : forall i, wfk nd (addk nd k i) -> isref k (S i) = false).
  { intros i W'. rewrite Hk. reflexivity. }
  eapply SIM_app; [|eapply SIM_app].
  - apply sMulx with (k' := k); [exact W|apply low_ok; lia|rewrite t_eq; lia|exact Hf|symmetry; apply addk_low; rewrite t_eq; lia].
  - instantiate (1 := addk nd k (t + n - 1)).
    assert (X : S' (addk nd k (t + 1 - 1)) (flat_map (fun j => [Op Imulx [AV (j mod 2); AV (t + j); b j]; Op Iadcx [AV (t + j); AV ((j - 1) mod 2)]]) (seq 1 (n - 1))) (addk nd k (t + (1 + (n - 1)) - 1))).
    { apply (SIM_seq (fun j => addk nd k (t + j - 1))). intros j Hj. set (k1 := addk nd k (t + j - 1)). assert (W1 : wfk nd k1) by (apply wA; [exact W|rewrite t_eq; lia]).
      assert (E1 : addk nd k1 (t + j) = addk nd k (t + j)) by (apply addk_trans; lia).
      assert (W2 : wfk nd (addk nd k (t + j))) by (apply wA; [exact W|rewrite t_eq; lia]).
      eapply SIM_cons; [apply sMulx with (k' := addk nd k (t + j)); [exact W1|apply M2|rewrite t_eq; lia|apply Hb|symmetry; exact E1]|].
      replace (t + S j - 1)%nat with (t + j)%nat by lia.
      apply (sAdd true); [exact W2|rewrite t_eq; lia|apply M2'| | |symmetry; apply addk_addk].
      - pose proof (Nat.mod_upper_bound (j - 1) 2). rewrite t_eq. lia.
      - intros _. apply isref_lowk; [exact W2|apply M2]. }
    rewrite (addk_low k (t + 1 - 1)) in X by (rewrite t_eq; lia). replace (t + (1 + (n - 1)) - 1)%nat with (t + n - 1)%nat in X by lia. exact X.
  - set (k1 := addk nd k (t + n - 1)). assert (W1 : wfk nd k1) by (apply wA; [exact W|rewrite t_eq; lia]).
    assert (I1 : isref k1 (t + n) = false).
    { unfold k1. apply isref_addk; [rewrite t_eq; lia|exact W|]. intros _. replace (t + n)%nat with (S (t + n - 1)) by (rewrite t_eq; lia). apply Hr, W1. }
    assert (E1 : addk nd k1 (t + n) = addk nd k (t + n)) by (apply addk_trans; lia).
    assert (W2 : wfk nd (addk nd k (t + n))) by (apply wA; [exact W|rewrite t_eq; lia]).
    assert (X : S' k1 [Op Imov [AV (t + n); AV 3]; Op Iadcx [AV (t + n); AV ((n - 1) mod 2)]] (addk nd k (t + n))).
    { eapply SIM_cons; [apply sMov; [exact W1|rewrite t_eq; lia|exact I1|reflexivity]|].
      apply (sAdd true); [exact W1|rewrite t_eq; lia|apply M2'| | |symmetry; exact E1].
      - pose proof (Nat.mod_upper_bound (n - 1) 2). rewrite t_eq. lia.
      - intros _. apply isref_lowk; [exact W1|apply M2]. }
    dopt En.
    + replace (nd - 1)%nat with (t + n)%nat by (rewrite En, t_eq; lia). exact X.
    + replace (nd - 1)%nat with (t + n + 1)%nat by (rewrite En, t_eq; lia).
      assert (L1 : (t + n + 1 < nd)%nat) by (rewrite t_eq, En; lia).
      refine (SIM_app _ _ _ _ _ _ _ [Op Imov [AV (t + n + 1); AV 3]; Op Iadcx [AV (t + n + 1); AV 3]] _ X _).
      eapply SIM_cons; [apply sMov; [exact W2|exact L1| |reflexivity]|].
      * apply isref_addk; [lia|exact W|]. intros _. replace (t + n + 1)%nat with (S (t + n)) by lia. apply Hr, W2.
      * apply (sAdd true); [exact W2|exact L1|apply low_nd, low_ok; lia|rewrite t_eq; lia|intros _; apply isref_lowk; [exact W2|apply low_ok; lia]|symmetry; apply addk_trans; lia].
Qed.
Lemma sim_next k b : wfk nd k -> (forall j, src_ok (b j)) -> isref k (nd - 1) = false -> S' k (nextRow n opt b) (addk nd k (nd - 1)).
Proof.
  intros W Hb Hk. unfold nextRow. pose proof nd_eq as En. assert (Hnd' : (n + 5 <= nd)%nat) by (rewrite En; destruct opt; lia).
  assert (A0 : forall x k' a b', wfk nd k' -> (a < nd)%nat -> (4 <= a)%nat -> (b' <= 3)%nat -> S' k' [Op (if x : bool then Iadcx else Iadox) [AV a; AV b']] (addk nd k' a)).
  { intros x k' a b' W' Ha La Lb. apply sAdd; [exact W'|exact Ha|apply low_nd, low_ok; lia|lia|intros _; apply isref_lowk; [exact W'|apply low_ok; lia]|reflexivity]. }
  eapply SIM_app; [apply sim_clear; assumption|]. eapply SIM_app.
  - instantiate (1 := addk nd k (t + n)).
    assert (X : S' (addk nd k (t + 0)) (flat_map (fun j => [Op Imulx [AV 1; AV 0; b j]; Op Iadcx [AV (t + j); AV 0]; Op Iadox [AV (t + j + 1); AV 1]]) (seq 0 n)) (addk nd k (t + (0 + n)))).
    { apply (SIM_seq (fun j => addk nd k (t + j))). intros j Hj. assert (W1 : wfk nd (addk nd k (t + j))) by (apply wA; [exact W|rewrite t_eq; lia]).
      eapply SIM_cons; [apply sMulx with (k' := addk nd k (t + j)); [exact W1|apply low_ok; lia|apply low_nd, low_ok; lia|apply Hb|symmetry; apply addk_low; lia]|].
      eapply SIM_cons; [apply (A0 true); [exact W1|rewrite t_eq; lia|rewrite t_eq; lia|lia]|]. rewrite addk_addk.
      replace (t + S j)%nat with (t + j + 1)%nat by lia. rewrite <- (addk_trans k (t + j) (t + j + 1)) by lia. apply (A0 false); [exact W1|rewrite t_eq; lia|rewrite t_eq; lia|lia]. }
    rewrite (addk_low k (t + 0)) in X by (rewrite t_eq; lia). exact X.
  - assert (W1 : wfk nd (addk nd k (t + n))) by (apply wA; [exact W|rewrite t_eq; lia]).
    assert (X : S' (addk nd k (t + n)) [Op Iadcx [AV (t + n); AV 3]] (addk nd k (t + n))).
    { rewrite <- (addk_addk k (t + n)) at 2. apply (A0 true); [exact W1|rewrite t_eq; lia|rewrite t_eq; lia|lia]. }
    dopt En.
    + replace (nd - 1)%nat with (t + n)%nat by (rewrite En, t_eq; lia). exact X.
    + replace (nd - 1)%nat with (t + n + 1)%nat by (rewrite En, t_eq; lia).
      assert (L1 : (t + n + 1 < nd)%nat) by (rewrite t_eq, En; lia).
      eapply SIM_cons; [exact X|].
      eapply SIM_cons; [apply (A0 true); [exact W1|exact L1|rewrite t_eq; lia|lia]|]. rewrite addk_trans by lia.
      rewrite <- (addk_addk k (t + n + 1)) at 2. apply (A0 false); [apply wA; [exact W|exact L1]|exact L1|rewrite t_eq; lia|lia].
Qed.

(** ** the rows *)
Lemma endk_top k : wfk nd k -> isref (endk k) (nd - 1) = false.
Proof.
  intros W. pose proof Hnd. unfold endk. apply isref_addk; [lia|exact W|]. intros L. destruct nu_cases as [(S1 & _)|(_ & S2 & S3)]; [rewrite (wfk_unspilled k W S1); reflexivity|lia].
Qed.
Lemma addk_top k : wfk nd k -> isref (addk nd k (nd - 1)) (nu nd) = false.
Proof.
  intros W. destruct nu_cases as [(S1 & _)|(_ & S2 & S3)].
  - rewrite (wfk_unspilled (addk nd k (nd - 1))); [reflexivity|apply wA; [exact W|pose proof Hnd; lia]|exact S1].
  - unfold addk. rewrite ltb_f by lia. cbn. apply Nat.eqb_neq. lia.
Qed.
Lemma endk_wf k : wfk nd k -> wfk nd (endk k).
Proof. intros W. apply wA; [exact W|pose proof Hnd; lia]. Qed.
(** states before each row: none, then [endk] *)
Definition rowk (i : nat) : cur := match i with O => None | S _ => endk None end.
Lemma wf_None : wfk nd None. Proof. exact Logic.I. Qed.
Lemma endk_idem k : wfk nd k -> endk k = endk None.
Proof.
  intros W. unfold endk, addk. pose proof Hnd. destruct nu_cases as [(S1 & _)|(_ & S2 & S3)]; [rewrite (wfk_unspilled k W S1); reflexivity|]. rewrite ltb_f by lia. reflexivity.
Qed.
Lemma rowk_wf i : wfk nd (rowk i). Proof. destruct i; [exact Logic.I|apply endk_wf, wf_None]. Qed.
Lemma rowk_top i : isref (rowk i) (nd - 1) = false. Proof. destruct i; [reflexivity|apply endk_top, wf_None]. Qed.
Lemma sim_rows upper : (forall i, (i < n)%nat -> exists k, wfk nd k /\ isref k (nu nd) = false /\ S' (rowk i) (upper i) k) ->
  S' None (flat_map (fun i => upper i ++ secondLoop n opt) (seq 0 n)) (rowk n).
Proof.
  intros H. change None with (rowk 0) at 1. apply (SIM_seq rowk). intros i Hi. destruct (H i) as (k & W & I0 & Hs); [lia|].
  eapply SIM_app; [exact Hs|]. cbn [rowk]. rewrite <- (endk_idem k W). apply sim_second; assumption.
Qed.
Lemma sim_tail k : wfk nd k -> exists k', S' k (tailCode n opt) k'.
Proof.
  intros W. unfold tailCode. pose proof nd_eq as En. assert (Hnd' : (n + 5 <= nd)%nat) by (rewrite En; destruct opt; lia).
  assert (X1 : exists k1, wfk nd k1 /\ clean k1 /\ S' (cleank k) (if opt then [] else [Op Itest [AV (t + n); AV (t + n)]; Jump Cnz lab_sq]) k1).
  { dopt En.
    - exists (cleank k). split; [apply (wfk_cleank nd), W|]. split; [apply clean_cleank|apply SIM_nil].
    - exists (ldk nd (cleank k) (t + n)). assert (W1 : wfk nd (cleank k)) by (apply (wfk_cleank nd), W). assert (L : (t + n < nd)%nat) by (rewrite t_eq; lia).
      split; [apply wL; assumption|]. split; [apply clean_ldk, clean_cleank|]. eapply SIM_cons; [apply sTest; assumption|]. apply sJump, clean_ldk, clean_cleank. }
  destruct X1 as (k1 & W1 & C1 & X1).
  assert (X2 : forall l k1, wfk nd k1 -> clean k1 -> Forall (fun i => (i < n)%nat) l ->
    exists k2, wfk nd k2 /\ clean k2 /\ S' k1 (flat_map (fun i => [Op Icmp [AV (t + i); mq i]; Jump Cc lab_done; Jump Cnz lab_sq]) l) k2).
  { clear k1 W1 C1 X1. induction l as [|i l IH]; intros k1 W1 C1 Hl; cbn [flat_map]; [exists k1; split; [exact W1|]; split; [exact C1|apply SIM_nil]|].
    pose proof (Forall_inv Hl) as Hi. pose proof (Forall_inv_tail Hl) as Hl'. cbn beta in Hi. assert (L : (t + i < nd)%nat) by (rewrite t_eq; lia). destruct (IH (ldk nd k1 (t + i))) as (k2 & W2 & C2 & X2); [apply wL; assumption|apply clean_ldk; assumption|exact Hl'|].
    exists k2. split; [exact W2|]. split; [exact C2|]. eapply SIM_app; [|exact X2].
    eapply SIM_cons; [apply sCmp; [exact W1|exact L|exact Logic.I]|]. eapply SIM_cons; apply sJump, clean_ldk; assumption. }
  destruct (X2 (rev (seq 0 n)) k1 W1 C1) as (k2 & W2 & C2 & X2'); [apply Forall_forall; intros i Hi; apply in_rev in Hi; apply in_seq in Hi; lia|].
  assert (X3 : forall l k1, wfk nd k1 -> Forall (fun i => (i < n)%nat) l -> exists k2, wfk nd k2 /\ S' k1 (map (fun i => Op (if Nat.eqb i 0 then Isub else Isbb) [AV (t + i); mq i]) l) k2).
  { clear k1 W1 C1 X1 X2 k2 W2 C2 X2'. induction l as [|i l IH]; intros k1 W1 Hl; cbn [map]; [exists k1; split; [exact W1|apply SIM_nil]|].
    pose proof (Forall_inv Hl) as Hi. pose proof (Forall_inv_tail Hl) as Hl'. cbn beta in Hi. assert (L : (t + i < nd)%nat) by (rewrite t_eq; lia). destruct (IH (addk nd k1 (t + i))) as (k2 & W2 & X2); [apply wA; assumption|exact Hl'|].
    exists k2. split; [exact W2|]. eapply SIM_cons; [|exact X2]. apply sSubm; [exact W1|exact L|exact Logic.I|reflexivity]. }
  assert (X4 : forall l k1, wfk nd k1 -> Forall (fun i => (i < n)%nat) l -> exists k2, wfk nd k2 /\ S' k1 (map (fun i => Op Imov [mrdi i; AV (t + i)]) l) k2).
  { clear k1 W1 C1 X1 X2 k2 W2 C2 X2' X3. induction l as [|i l IH]; intros k1 W1 Hl; cbn [map]; [exists k1; split; [exact W1|apply SIM_nil]|].
    pose proof (Forall_inv Hl) as Hi. pose proof (Forall_inv_tail Hl) as Hl'. cbn beta in Hi. assert (L : (t + i < nd)%nat) by (rewrite t_eq; lia). destruct (IH (ldk nd k1 (t + i))) as (k2 & W2 & X2); [apply wL; assumption|exact Hl'|].
    exists k2. split; [exact W2|]. eapply SIM_cons; [|exact X2]. apply sOut; [exact W1|exact L|right; right; left; reflexivity]. }
  assert (Hs : Forall (fun i => (i < n)%nat) (seq 0 n)) by (apply Forall_forall; intros i Hi; apply in_seq in Hi; lia).
  destruct (X3 (seq 0 n) None Logic.I Hs) as (k3 & W3 & X3'). destruct (X4 (seq 0 n) None Logic.I Hs) as (k4 & W4 & X4').
  exists k4. eapply SIM_app; [apply (sFlush k false), W|]. eapply SIM_app; [exact X1|]. eapply SIM_app; [exact X2'|].
  eapply SIM_app; [apply sLabel; assumption|]. eapply SIM_app; [exact X3'|].
  eapply SIM_app; [|exact X4']. eapply SIM_cons; [apply (sFlush k3 true), W3|]. apply sLabel; exact Logic.I.
Qed.
Lemma sim_template upper : (forall i, (i < n)%nat -> exists k, wfk nd k /\ isref k (nu nd) = false /\ S' (rowk i) (upper i) k) ->
  exists k', S' None (template n opt upper) k'.
Proof.
  intros H. destruct (sim_tail (rowk n) (rowk_wf n)) as (k' & X). exists k'. unfold template. eapply SIM_app; [|eapply SIM_app; [apply sim_rows, H|exact X]].
  eapply SIM_cons; [apply sMovr; [exact Logic.I|left; reflexivity|right; left; reflexivity]|].
  eapply SIM_cons; [apply sMovm with (k' := None); [exact Logic.I|apply low_nd, low_ok; lia|exact Logic.I|symmetry; apply addk_low; lia]|].
  apply sXor; [exact Logic.I|apply low_ok; lia].
Qed.
Lemma top_wf i : wfk nd (addk nd (rowk i) (nd - 1)).
Proof. apply wA; [apply rowk_wf|pose proof Hnd; lia]. Qed.
Lemma sim_mul : exists k', S' None (template n opt (mulUpper n opt)) k'.
Proof.
  apply sim_template. intros i Hi. exists (addk nd (rowk i) (nd - 1)). split; [apply top_wf|]. split; [apply addk_top, rowk_wf|].
  unfold mulUpper. eapply SIM_app; [apply sMovr; [apply rowk_wf|right; left; reflexivity|right; right; right; reflexivity]|].
  destruct i as [|i]; cbn [Nat.eqb].
  - apply sim_first; [exact Logic.I|left; reflexivity|intros j; left; reflexivity|reflexivity].
  - apply sim_next; [apply rowk_wf|intros j; left; reflexivity|apply rowk_top].
Qed.
Lemma sim_square : exists k', S' None (template n opt (squareUpper n opt)) k'.
Proof.
  apply sim_template. intros i Hi. exists (addk nd (rowk i) (nd - 1)). split; [apply top_wf|]. split; [apply addk_top, rowk_wf|].
  unfold squareUpper. eapply SIM_app; [apply sMovr; [apply rowk_wf|right; left; reflexivity|right; right; right; reflexivity]|].
  destruct i as [|i]; cbn [Nat.eqb].
  - apply sim_first; [exact Logic.I|right; left; reflexivity|intros j; right; right; right; reflexivity|reflexivity].
  - apply sim_next; [apply rowk_wf|intros j; right; right; right; reflexivity|apply rowk_top].
Qed.
Lemma rowk_nu i : nd <> 12%nat -> isref (rowk i) (nu nd) = false.
Proof.
  intros H. destruct i as [|i]; [reflexivity|]. cbn [rowk]. destruct nu_cases as [(S1 & _)|(_ & S2 & S3)].
  - rewrite (wfk_unspilled (endk None)); [reflexivity|apply endk_wf, wf_None|exact S1].
  - unfold endk, addk. rewrite ltb_f by lia. cbn. apply Nat.eqb_neq. lia.
Qed.
(** mul1 reads stale memory when there are exactly two references in memory *)
Lemma sim_mul1 : nd <> 12%nat -> exists k', S' None (template n opt (mul1Upper n opt)) k'.
Proof.
  intros H. apply sim_template. intros i Hi. destruct i as [|i]; unfold mul1Upper; cbn [Nat.eqb].
  - exists (addk nd None (nd - 1)). split; [apply (top_wf 0)|]. split; [apply addk_top, wf_None|].
    eapply SIM_app; [apply sMovr; [exact Logic.I|right; left; reflexivity|left; reflexivity]|].
    apply sim_first; [exact Logic.I|right; right; right; reflexivity|intros j; right; right; right; reflexivity|reflexivity].
  - exists (rowk (S i)). split; [apply rowk_wf|]. split; [apply rowk_nu, H|]. apply sim_clear; [apply rowk_wf|apply rowk_top].
Qed.
Lemma sim_from : nd <> 12%nat -> n <> 7%nat -> exists k', S' None (template n opt (fromUpper n opt)) k'.
Proof.
  intros H H7. apply sim_template. pose proof nd_eq as En. assert (Hnd' : (n + 5 <= nd)%nat) by (rewrite En; destruct opt; lia). intros i Hi. destruct i as [|i]; unfold fromUpper; cbn [Nat.eqb].
  - exists (addk nd None (t + n - 1)). assert (W1 : wfk nd (addk nd None (t + n - 1))) by (apply wA; [exact Logic.I|rewrite t_eq; lia]). split; [exact W1|]. split.
    + apply isref_addk; [|exact Logic.I|reflexivity]. rewrite t_eq. destruct nu_cases as [(S1 & S2 & _)|(_ & S2 & S3)]; rewrite S2; lia.
    + eapply SIM_app; [|eapply SIM_app].
      * instantiate (1 := addk nd None (t + n - 1)). rewrite map_flat_map.
        assert (X : S' (addk nd None (t + 0 - 1)) (flat_map (fun j => [Op Imov [AV (t + j); mrsi j]]) (seq 0 n)) (addk nd None (t + (0 + n) - 1))).
        { apply (SIM_seq (fun j => addk nd None (t + j - 1))). intros j Hj. apply sMovm; [apply wA; [exact Logic.I|rewrite t_eq; lia]|rewrite t_eq; lia|right; right; right; reflexivity|].
          replace (t + S j - 1)%nat with (t + j)%nat by lia. symmetry. apply addk_trans. lia. }
        rewrite (addk_low None (t + 0 - 1)) in X by (rewrite t_eq; lia). exact X.
      * apply sMov; [exact W1|rewrite t_eq; lia| |reflexivity]. apply isref_addk; [rewrite t_eq; lia|exact Logic.I|reflexivity].
      * dopt En; [apply SIM_nil|]. apply sMov; [exact W1|rewrite t_eq, En; lia| |reflexivity]. apply isref_addk; [rewrite t_eq; lia|exact Logic.I|reflexivity].
  - exists (rowk (S i)). split; [apply rowk_wf|]. split; [apply rowk_nu, H|]. apply sim_clear; [apply rowk_wf|apply rowk_top].
Qed.
End Sim2.
