(** Programs stay well formed and compute in Z/q. *)
From Coq Require Import ZArith List Lia Bool.
From Verif Require Import Limbs LimbsFacts Gen GenFacts Raw Spec RawFacts Fr FrSpec FrFacts FrFacts2 FrFacts3 FrProg.
Import ListNotations.
Open Scope Z_scope.

Section Prog.
Variables (q : Z) (P : zq).
Hypothesis OK : zq_ok q P.
Hypothesis Q62 : 2 ^ 62 < q.
Hypothesis Qbits : bitlen q < 2 ^ 64.
Notation n := (p_n64 P).

Lemma Q32' : 2 ^ 32 < q. Proof. eapply Z.lt_trans; [|exact Q62]. reflexivity. Qed.
Lemma Qb' : p_bits P < B. Proof. rewrite (bits_eq q P OK). exact Qbits. Qed.

Lemma distinct_add r a b m : r <> a -> r <> b -> add_alias_ok r a b m.
Proof. split; congruence. Qed.
Lemma distinct_sub r a b m : r <> a -> r <> b -> sub_alias_ok r a b m.
Proof. split; [apply distinct_add; auto|congruence]. Qed.
Lemma distinct_bit r a b m : r <> a -> r <> b -> bit_alias_ok r a b m.
Proof. split; intro; congruence. Qed.

Lemma yields_agrees r m m' v e : yields q n r m m' v -> agrees q n m e -> agrees q n m' (set e r v).
Proof.
  intros (H1 & H2 & H3) Ha p w Hu. unfold set. destruct (ptr_eqb p r) eqn:E.
  - apply ptr_eqb_eq in E. subst. intros [= <-]. exact H2.
  - intros Hp. apply elt_same with m; auto. apply H3; auto. intros ->. rewrite ptr_eqb_refl in E. discriminate.
Qed.

Lemma chgs_yields r m m' v : chgs [r] m m' -> typed n m' -> elt q n m' r v -> yields q n r m m' v.
Proof.
  intros C Ht He. split; [auto|]. split; [auto|]. intros p _ Hp. apply C. cbn. intuition congruence.
Qed.

Lemma exec_spec c m e e' : ok_cmd c -> typed n m -> agrees q n m e -> vexec q c e = Some e' ->
  typed n (exec P c m) /\ agrees q n (exec P c m) e' .
Proof.
  intros Hok Ht Ha Hv. pose proof Q32' as Q32. pose proof Qb' as Qb.
  assert (K : forall r v, yields q n r m (exec P c m) v -> e' = set e r v ->
    typed n (exec P c m) /\ agrees q n (exec P c m) e').
  { intros r v Hy ->. split; [apply Hy|eapply yields_agrees; eauto]. }
  destruct c as [o r a b|o r a|r]; cbn [vexec] in Hv.
  - destruct (e a) as [x|] eqn:Ea; [|discriminate]. destruct (e b) as [y|] eqn:Eb; [|discriminate].
    injection Hv as Hv. destruct Hok as (Hr & Hua & Hub & Hd).
    pose proof (Ha a x Hua Ea) as Hx. pose proof (Ha b y Hub Eb) as Hy.
    apply (K r (bval q o x y)); [|auto].
    destruct o; cbn [exec bval needs_distinct] in *;
      try (destruct (Hd eq_refl) as [D1 D2]); unfold shl_alias_ok.
    + apply Fr_add_spec; auto using distinct_add.
    + apply Fr_sub_spec; auto using distinct_sub.
    + apply Fr_mul_spec; auto.
    + apply Fr_lt_spec; auto.
    + apply Fr_gt_spec; auto.
    + apply Fr_leq_spec; auto.
    + apply Fr_geq_spec; auto.
    + apply Fr_eq_spec; auto.
    + apply Fr_neq_spec; auto.
    + apply Fr_land_spec; auto.
    + apply Fr_lor_spec; auto.
    + apply Fr_band_spec; auto using distinct_bit.
    + apply Fr_bor_spec; auto using distinct_bit.
    + apply Fr_bxor_spec; auto using distinct_bit.
    + apply Fr_shl_spec; auto. intros _ ?; congruence.
    + apply Fr_shr_spec; auto. intros _ ?; congruence.
  - destruct (e a) as [x|] eqn:Ea; [|discriminate].
    injection Hv as Hv. destruct Hok as (Hr & Hua & Hd).
    pose proof (Ha a x Hua Ea) as Hx.
    apply (K r (uval q o x)); [|auto].
    destruct o; cbn [exec uval].
    + apply Fr_square_spec; auto.
    + apply Fr_neg_spec; auto.
    + apply Fr_lnot_spec; auto.
    + apply Fr_bnot_spec; auto. intros ->. specialize (Hd eq_refl). congruence.
    + destruct (copy_spec q P r a m x Ht Hx) as (H1 & H2 & H3 & _). apply chgs_yields; auto.
    + destruct (toNormal_spec q P OK r a m x Ht Hx) as (H1 & H2 & H3 & _). apply chgs_yields; auto.
    + destruct (toLongNormal_spec q P OK Q32 r a m x Ht Hx) as (H1 & H2 & H3 & _). apply chgs_yields; auto.
  - destruct (e r) as [x|] eqn:Ea; [|discriminate]. injection Hv as Hv. cbn in Hok.
    pose proof (Ha r x Hok Ea) as Hx. apply (K r x); [|auto]. cbn [exec].
    destruct (toMontgomery_spec q P OK r r m x Ht Hx) as (H1 & H2 & _ & _ & _ & H3).
    apply chgs_yields; auto.
Qed.

Theorem run_spec l : forall m e e', Forall ok_cmd l -> typed n m -> agrees q n m e -> vrun q l e = Some e' ->
  typed n (run P l m) /\ agrees q n (run P l m) e'.
Proof.
  induction l as [|c l IH]; intros m e e' Hok Ht Ha Hv; cbn [run vrun] in *.
  - injection Hv as <-. auto.
  - destruct (vexec q c e) as [e1|] eqn:Ec; [|discriminate]. inversion Hok; subst.
    destruct (exec_spec c m e e1) as [Ht1 Ha1]; auto. eapply IH; eauto.
Qed.
End Prog.
