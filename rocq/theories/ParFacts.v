(** Interleavings of threads that do not conflict all have the same effect. *)
From Coq Require Import ZArith List Bool Lia.
From Verif Require Import Par.
Import ListNotations.

Lemma addr_eqb_spec a b : reflect (a = b) (addr_eqb a b).
Proof.
  destruct a as [r i|t k], b as [r' i'|t' k']; cbn; try (constructor; congruence).
  - destruct (Nat.eqb_spec r r'), (Z.eqb_spec i i'); cbn; constructor; congruence.
  - destruct (Z.eqb_spec t t'), (Nat.eqb_spec k k'); cbn; constructor; congruence.
Qed.
Section F.
Variable V : Type.
Implicit Types (m : pmem V) (x y : instr V) (l t u : list (instr V)).
Lemma pset_same m a v : pset m a v a = v.
Proof. unfold pset. destruct (addr_eqb_spec a a); congruence. Qed.
Lemma pset_other m a v b : b <> a -> pset m a v b = m b.
Proof. unfold pset. destruct (addr_eqb_spec b a); congruence. Qed.
Lemma meq_refl m : meq m m. Proof. intros a. reflexivity. Qed.
Lemma meq_trans m m' m'' : meq m m' -> meq m' m'' -> meq m m''. Proof. intros H H' a. rewrite H. apply H'. Qed.
Lemma meq_sym m m' : meq m m' -> meq m' m. Proof. intros H a. symmetry. apply H. Qed.
Lemma exec1_meq x m m' : meq m m' -> meq (exec1 x m) (exec1 x m').
Proof. intros H a. unfold exec1, pset. rewrite (map_ext m m' H). destruct (addr_eqb a (dst x)); [reflexivity|apply H]. Qed.
Lemma prun_meq l : forall m m', meq m m' -> meq (prun l m) (prun l m').
Proof. induction l as [|x l IH]; intros m m' H; [exact H|]. cbn. apply IH, exec1_meq, H. Qed.
Lemma prun_app l l' m : prun (l ++ l') m = prun l' (prun l m).
Proof. apply fold_left_app. Qed.
Lemma prun_cons x l m : prun (x :: l) m = prun l (exec1 x m). Proof. reflexivity. Qed.
Lemma exec1_comm x y m : noconf x y -> meq (exec1 x (exec1 y m)) (exec1 y (exec1 x m)).
Proof.
  intros (H1 & H2 & H3) a. unfold exec1 at 1 3.
  assert (E1 : map (exec1 y m) (srcs x) = map m (srcs x)).
  { apply map_ext_in. intros b Hb. unfold exec1. apply pset_other. intros ->. contradiction. }
  assert (E2 : map (exec1 x m) (srcs y) = map m (srcs y)).
  { apply map_ext_in. intros b Hb. unfold exec1. apply pset_other. intros ->. contradiction. }
  rewrite E1, E2. unfold exec1, pset. destruct (addr_eqb_spec a (dst x)), (addr_eqb_spec a (dst y)); try reflexivity. congruence.
Qed.
Lemma exec1_past x l : (forall y, List.In y l -> noconf x y) -> forall m, meq (prun l (exec1 x m)) (exec1 x (prun l m)).
Proof.
  induction l as [|y l IH]; intros H m; [apply meq_refl|]. rewrite !prun_cons. eapply meq_trans; [|apply IH; intros; apply H; right; assumption].
  apply prun_meq. apply meq_sym. apply exec1_comm. apply H. left. reflexivity.
Qed.
Lemma noconf_sym x y : noconf x y -> noconf y x.
Proof. intros (H1 & H2 & H3). repeat split; auto. Qed.
Lemma race_free_pre pre t post : race_free (pre ++ t :: post) -> forall u, List.In u pre -> indep u t.
Proof.
  induction pre as [|u0 pre IH]; intros H u Hu; [destruct Hu|]. inversion H as [|? ? Hf Ho]; subst. destruct Hu as [<-|Hu].
  - rewrite Forall_forall in Hf. apply Hf. apply in_or_app. right. left. reflexivity.
  - apply IH; assumption.
Qed.
Lemma indep_tl_r x t u : indep u (x :: t) -> indep u t.
Proof. intros H a b Ha Hb. apply H; [exact Ha|right; exact Hb]. Qed.
Lemma indep_tl_l x t u : indep (x :: t) u -> indep t u.
Proof. intros H a b Ha Hb. apply H; [right; exact Ha|exact Hb]. Qed.
Lemma race_free_tl pre x t post : race_free (pre ++ (x :: t) :: post) -> race_free (pre ++ t :: post).
Proof.
  induction pre as [|u pre IH]; intros H; cbn in *; inversion H as [|? ? Hf Ho]; subst; constructor.
  - eapply Forall_impl; [|exact Hf]. intros u. apply indep_tl_l.
  - exact Ho.
  - apply Forall_app in Hf. destruct Hf as [Hf1 Hf2]. apply Forall_app. split; [exact Hf1|]. inversion Hf2; subst. constructor; [eapply indep_tl_r; eassumption|assumption].
  - apply IH, Ho.
Qed.
Theorem inter_run ts l : inter ts l -> race_free ts -> forall m, meq (prun l m) (prun (concat ts) m).
Proof.
  induction 1 as [ts H|pre x t post l H IH]; intros RF m.
  - replace (concat ts) with (@nil (instr V)); [apply meq_refl|]. induction H as [|t ts -> _ IH]; [reflexivity|]. cbn. apply IH. inversion RF; assumption.
  - rewrite prun_cons. eapply meq_trans; [apply IH; eapply race_free_tl; eassumption|]. rewrite !concat_app. cbn [concat]. rewrite !prun_app. rewrite prun_cons.
    apply prun_meq, prun_meq. apply exec1_past. intros y Hy. apply in_concat in Hy. destruct Hy as (u & Hu & Hy). apply noconf_sym.
    apply (race_free_pre _ _ _ RF u Hu); [exact Hy|left; reflexivity].
Qed.
Lemma inter_concat (ts : list (list (instr V))) : inter ts (concat ts).
Proof.
  induction ts as [|t ts IH]; [constructor; constructor|]. cbn [concat]. induction t as [|x t IHt].
  - cbn. clear -IH. set (l := concat ts) in *. clearbody l. induction IH as [ts H|pre x t post l H IH].
    + apply inter_nil. constructor; [reflexivity|exact H].
    + apply (inter_cons _ ([] :: pre)). exact IH.
  - apply (inter_cons _ []). exact IHt.
Qed.
End F.
