(** All overloads of Curve's operations, and sequences of them. *)
From Coq Require Import List Bool Arith.
From Verif Require Import Tower TowerAlg TowerFacts TowerFacts2 Curve CurveFacts CurveAlg.
Import ListNotations.

Section CP.
Variable K : rng.
Variables a b : K.
Notation mem := (mem K).
(** nothing outside r and the functions' locals changes *)
Definition frameU (r : loc) (m m' : mem) : Prop := forall c, inside r c = false -> loc2 c = false -> m' c = m c.
Lemma frameC_U r m m' : frameC K r m m' -> frameU r m m'.
Proof. intros H c H1 H2. apply H; [auto|]. apply loc2_1, H2. Qed.
Lemma frameU_tmp i r m m1 m2 : frameC K (R (T2 i)) m m1 -> frameU r m1 m2 -> frameU r m m2.
Proof. intros H1 H2 c A B. rewrite (H2 c A B). apply H1; [apply loc2_T, B|apply loc2_1, B]. Qed.
Lemma leqb_T2 i p : loc2 p = false -> leqb p (R (T2 i)) = false.
Proof. intros H. apply leqb_neq. intros ->. discriminate. Qed.

(** the operand values seen after a local point has been written *)
Definition resP (m' m : mem) r v := valP K m' r = v /\ frameU r m m'.
Definition resA (m' m : mem) r v := valA K m' r = v /\ frameU r m m'.
Lemma atP_res m' m r v : atP K m' m r v -> frameC K r m m' -> resP m' m r v.
Proof. intros H F. split; [rewrite (H r), leqb_refl; reflexivity|apply frameC_U, F]. Qed.
Lemma atA_res m' m r v : atA K m' m r v -> frameC K r m m' -> resA m' m r v.
Proof. intros H F. split; [rewrite (H r), leqb_refl; reflexivity|apply frameC_U, F]. Qed.

Lemma PPP_add_res r p q m : resP (PPP_add K a r p q m) m r (add44 K a (valP K m p) (valP K m q)).
Proof. apply atP_res; [apply PPP_add_at|apply PPP_add_fr]. Qed.
Lemma PPA_add_res r p q m : resP (PPA_add K a r p q m) m r (add42 K a (valP K m p) (valA K m q)).
Proof. apply atP_res; [apply PPA_add_at|apply PPA_add_fr]. Qed.
Lemma PAA_add_res r p q m : resP (PAA_add K a r p q m) m r (add22 K a (valA K m p) (valA K m q)).
Proof. apply atP_res; [apply PAA_add_at|apply PAA_add_fr]. Qed.
Lemma PAP_add_res r p q m : resP (PAP_add K a r p q m) m r (add42 K a (valP K m q) (valA K m p)).
Proof. unfold PAP_add. apply PPA_add_res. Qed.
Lemma AP_copy_tmp m m1 r i v : frameC K (R (T2 i)) m m1 -> valP K m1 (R (T2 i)) = v -> resA (AP_copy K r (R (T2 i)) m1) m r (toA K v).
Proof.
  intros F E. split; [rewrite (AP_copy_at K r (R (T2 i)) m1 r), leqb_refl, E; reflexivity|].
  eapply frameU_tmp; [exact F|]. apply frameC_U, AP_copy_fr.
Qed.
Lemma APP_add_res r p q m : resA (APP_add K a r p q m) m r (toA K (add44 K a (valP K m p) (valP K m q))).
Proof. apply AP_copy_tmp; [apply PPP_add_fr|]. apply PPP_add_res. Qed.
Lemma APA_add_res r p q m : resA (APA_add K a r p q m) m r (toA K (add42 K a (valP K m p) (valA K m q))).
Proof. apply AP_copy_tmp; [apply PPA_add_fr|]. apply PPA_add_res. Qed.
Lemma AAA_add_res r p q m : resA (AAA_add K a r p q m) m r (toA K (add22 K a (valA K m p) (valA K m q))).
Proof. apply AP_copy_tmp; [apply PAA_add_fr|]. apply PAA_add_res. Qed.
Lemma AAP_add_res r p q m : resA (AAP_add K a r p q m) m r (toA K (add42 K a (valP K m q) (valA K m p))).
Proof. unfold AAP_add, PAP_add. apply AP_copy_tmp; [apply PPA_add_fr|]. apply PPA_add_res. Qed.
Lemma PP_neg_p i q m p : loc2 p = false -> valP K (PP_neg K (R (T2 i)) q m) p = valP K m p /\ valA K (PP_neg K (R (T2 i)) q m) p = valA K m p.
Proof.
  intros L. assert (E : valP K (PP_neg K (R (T2 i)) q m) p = valP K m p) by (rewrite (PP_neg_at K (R (T2 i)) q m p), leqb_T2 by auto; reflexivity).
  split; [exact E|]. unfold valP, valA in *. congruence.
Qed.
Lemma AA_neg_p i q m p : loc2 p = false -> valP K (AA_neg K (R (T2 i)) q m) p = valP K m p /\ valA K (AA_neg K (R (T2 i)) q m) p = valA K m p.
Proof.
  intros L. assert (F : forall j, AA_neg K (R (T2 i)) q m (C j p) = m (C j p)).
  { intros j. apply AA_neg_fr; [rewrite inside_root|unfold loc1; cbn]; unfold loc2 in L; destruct (root p) eqn:E; cbn in *; rewrite ?E; try discriminate; reflexivity. }
  unfold valP, valA. rewrite !F. auto.
Qed.
Lemma subP i r q m m2 v : frameU r (PP_neg K (R (T2 i)) q m) m2 -> valP K m2 r = v -> resP m2 m r v.
Proof. intros F E. split; [exact E|]. eapply frameU_tmp; [apply PP_neg_fr|exact F]. Qed.
Ltac neg := rewrite ?(PP_neg_at K _ _ _ _), ?(AA_neg_at K _ _ _ _), ?leqb_refl.
Lemma PPP_sub_res r p q m : loc2 p = false -> resP (PPP_sub K a r p q m) m r (add44 K a (valP K m p) (neg4 K (valP K m q))).
Proof.
  intros L. unfold PPP_sub. destruct (PPP_add_res r p (R (T2 1)) (PP_neg K (R (T2 1)) q m)) as [E F].
  rewrite (proj1 (PP_neg_p 1 q m p L)) in E. revert E. neg. intros E. split; [exact E|]. eapply frameU_tmp; [apply PP_neg_fr|exact F].
Qed.
Lemma PPA_sub_res r p q m : loc2 p = false -> resP (PPA_sub K a r p q m) m r (add42 K a (valP K m p) (neg2 K (valA K m q))).
Proof.
  intros L. unfold PPA_sub. destruct (PPA_add_res r p (R (T2 1)) (AA_neg K (R (T2 1)) q m)) as [E F].
  rewrite (proj1 (AA_neg_p 1 q m p L)) in E. revert E. neg. intros E. split; [exact E|]. eapply frameU_tmp; [apply AA_neg_fr|exact F].
Qed.
Lemma PAA_sub_res r p q m : loc2 p = false -> resP (PAA_sub K a r p q m) m r (add22 K a (valA K m p) (neg2 K (valA K m q))).
Proof.
  intros L. unfold PAA_sub. destruct (PAA_add_res r p (R (T2 1)) (AA_neg K (R (T2 1)) q m)) as [E F].
  rewrite (proj2 (AA_neg_p 1 q m p L)) in E. revert E. neg. intros E. split; [exact E|]. eapply frameU_tmp; [apply AA_neg_fr|exact F].
Qed.
Lemma PAP_sub_res r p q m : loc2 p = false -> resP (PAP_sub K a r p q m) m r (add42 K a (neg4 K (valP K m q)) (valA K m p)).
Proof.
  intros L. unfold PAP_sub. destruct (PAP_add_res r p (R (T2 1)) (PP_neg K (R (T2 1)) q m)) as [E F].
  rewrite (proj2 (PP_neg_p 1 q m p L)) in E. revert E. neg. intros E. split; [exact E|]. eapply frameU_tmp; [apply PP_neg_fr|exact F].
Qed.
Lemma APP_sub_res r p q m : loc2 p = false -> resA (APP_sub K a r p q m) m r (toA K (add44 K a (valP K m p) (neg4 K (valP K m q)))).
Proof.
  intros L. unfold APP_sub. destruct (APP_add_res r p (R (T2 1)) (PP_neg K (R (T2 1)) q m)) as [E F].
  rewrite (proj1 (PP_neg_p 1 q m p L)) in E. revert E. neg. intros E. split; [exact E|]. eapply frameU_tmp; [apply PP_neg_fr|exact F].
Qed.
Lemma APA_sub_res r p q m : loc2 p = false -> resA (APA_sub K a r p q m) m r (toA K (add42 K a (valP K m p) (neg2 K (valA K m q)))).
Proof.
  intros L. unfold APA_sub. destruct (APA_add_res r p (R (T2 1)) (AA_neg K (R (T2 1)) q m)) as [E F].
  rewrite (proj1 (AA_neg_p 1 q m p L)) in E. revert E. neg. intros E. split; [exact E|]. eapply frameU_tmp; [apply AA_neg_fr|exact F].
Qed.
Lemma AAA_sub_res r p q m : loc2 p = false -> resA (AAA_sub K a r p q m) m r (toA K (add22 K a (valA K m p) (neg2 K (valA K m q)))).
Proof.
  intros L. unfold AAA_sub. destruct (AAA_add_res r p (R (T2 1)) (AA_neg K (R (T2 1)) q m)) as [E F].
  rewrite (proj2 (AA_neg_p 1 q m p L)) in E. revert E. neg. intros E. split; [exact E|]. eapply frameU_tmp; [apply AA_neg_fr|exact F].
Qed.
Lemma AAP_sub_res r p q m : loc2 p = false -> resA (AAP_sub K a r p q m) m r (toA K (add42 K a (neg4 K (valP K m q)) (valA K m p))).
Proof.
  intros L. unfold AAP_sub. destruct (AAP_add_res r p (R (T2 1)) (PP_neg K (R (T2 1)) q m)) as [E F].
  rewrite (proj2 (PP_neg_p 1 q m p L)) in E. revert E. neg. intros E. split; [exact E|]. eapply frameU_tmp; [apply PP_neg_fr|exact F].
Qed.
Lemma PP_dbl_res r p m : resP (PP_dbl K a r p m) m r (dbl4 K a (valP K m p)).
Proof. apply atP_res; [apply PP_dbl_at|apply PP_dbl_fr]. Qed.
Lemma PA_dbl_res r p m : resP (PA_dbl K a r p m) m r (dbl2 K a (valA K m p)).
Proof. apply atP_res; [apply PA_dbl_at|apply PA_dbl_fr]. Qed.
Lemma AP_dbl_res r p m : resA (AP_dbl K a r p m) m r (toA K (dbl4 K a (valP K m p))).
Proof. apply AP_copy_tmp; [apply PP_dbl_fr|]. apply PP_dbl_res. Qed.
Lemma AA_dbl_res r p m : resA (AA_dbl K a r p m) m r (toA K (dbl2 K a (valA K m p))).
Proof. apply AP_copy_tmp; [apply PA_dbl_fr|]. apply PA_dbl_res. Qed.
Lemma PP_copy_res r p m : resP (PP_copy K r p m) m r (valP K m p).
Proof. apply atP_res; [apply PP_copy_at|apply PP_copy_fr]. Qed.
Lemma PA_copy_res r p m : resP (PA_copy K r p m) m r (toP K (valA K m p)).
Proof. apply atP_res; [apply PA_copy_at|apply PA_copy_fr]. Qed.
Lemma AP_copy_res r p m : resA (AP_copy K r p m) m r (toA K (valP K m p)).
Proof. apply atA_res; [apply AP_copy_at|apply AP_copy_fr]. Qed.
Lemma AA_copy_res r p m : resA (AA_copy K r p m) m r (valA K m p).
Proof. apply atA_res; [apply AA_copy_at|apply AA_copy_fr]. Qed.
Lemma PP_neg_res r p m : resP (PP_neg K r p m) m r (neg4 K (valP K m p)).
Proof. apply atP_res; [apply PP_neg_at|apply PP_neg_fr]. Qed.
Lemma AA_neg_res r p m : resA (AA_neg K r p m) m r (neg2 K (valA K m p)).
Proof. apply atA_res; [apply AA_neg_at|apply AA_neg_fr]. Qed.
Lemma AP_neg_res r p m : resA (AP_neg K r p m) m r (neg2 K (toA K (valP K m p))).
Proof. apply atA_res; [apply AP_neg_at|apply AP_neg_fr]. Qed.
Lemma PA_neg_res r p m : resP (PA_neg K r p m) m r (P4 K (m (C 0 p)) (ropp (m (C 1 p))) r1 r1).
Proof. apply atP_res; [apply PA_neg_at|apply PA_neg_fr]. Qed.

(** ** sequences of operations on an array of points of both kinds *)
Inductive instr := Add (r p q : nat) | Sub (r p q : nat) | Dbl (r p : nat) | Neg (r p : nat) | Copy (r p : nat).
(** kd n = true: the n-th object is a Point, otherwise a PointAffine; C++
    selects the overload by these types *)
Variable kd : nat -> bool.
Notation u n := (R (User n)).
Definition exec (i : instr) (m : mem) : mem :=
  match i with
  | Add r p q =>
      (match kd r, kd p, kd q with
       | true, true, true => PPP_add K a | true, true, false => PPA_add K a | true, false, true => PAP_add K a | true, false, false => PAA_add K a
       | false, true, true => APP_add K a | false, true, false => APA_add K a | false, false, true => AAP_add K a | false, false, false => AAA_add K a
       end) (u r) (u p) (u q) m
  | Sub r p q =>
      (match kd r, kd p, kd q with
       | true, true, true => PPP_sub K a | true, true, false => PPA_sub K a | true, false, true => PAP_sub K a | true, false, false => PAA_sub K a
       | false, true, true => APP_sub K a | false, true, false => APA_sub K a | false, false, true => AAP_sub K a | false, false, false => AAA_sub K a
       end) (u r) (u p) (u q) m
  | Dbl r p => (match kd r, kd p with true, true => PP_dbl K a | true, false => PA_dbl K a | false, true => AP_dbl K a | false, false => AA_dbl K a end) (u r) (u p) m
  | Neg r p => (match kd r, kd p with true, true => PP_neg K | true, false => PA_neg K | false, true => AP_neg K | false, false => AA_neg K end) (u r) (u p) m
  | Copy r p => (match kd r, kd p with true, true => PP_copy K | true, false => PA_copy K | false, true => AP_copy K | false, false => AA_copy K end) (u r) (u p) m
  end.
Fixpoint run (l : list instr) (m : mem) : mem := match l with [] => m | i :: l => run l (exec i m) end.
(** the point the n-th object denotes, and its validity *)
Definition den (m : mem) (n : nat) : point K := if kd n then den4 K (valP K m (u n)) else den2 K (valA K m (u n)).
Definition ok (m : mem) (n : nat) : Prop := if kd n then valid4 K a b (valP K m (u n)) else valid2 K a b (valA K m (u n)).
(** excluded: neg(Point&, PointAffine&) of the affine infinity *)
Definition safe1 (i : instr) (m : mem) : Prop := match i with Neg r p => kd r = true -> kd p = false -> den m p <> Inf K | _ => True end.
Fixpoint safe (l : list instr) (m : mem) : Prop := match l with [] => True | i :: l => safe1 i m /\ safe l (exec i m) end.
(** specification: the same sequence with the group law *)
Definition set (e : nat -> point K) (r : nat) (v : point K) (n : nat) : point K := if n =? r then v else e n.
Definition sexec (i : instr) (e : nat -> point K) : nat -> point K :=
  match i with
  | Add r p q => set e r (gplus K a (e p) (e q))
  | Sub r p q => set e r (gplus K a (e p) (gopp K (e q)))
  | Dbl r p => set e r (gplus K a (e p) (e p))
  | Neg r p => set e r (gopp K (e p))
  | Copy r p => set e r (e p)
  end.
Definition srun (l : list instr) (e : nat -> point K) : nat -> point K := fold_left (fun e i => sexec i e) l e.

Hypothesis HF : is_field K.
Hypothesis Hb : b <> r0.
Hypothesis H2 : radd r1 r1 <> (r0 : K).
Hypothesis HD : disc K a b <> r0.

Definition m_ok (m : mem) : Prop := forall n, ok m n.
Lemma ok_p m n : ok m n -> kd n = true -> valid4 K a b (valP K m (u n)). Proof. unfold ok. intros H E. rewrite E in H. exact H. Qed.
Lemma ok_a m n : ok m n -> kd n = false -> valid2 K a b (valA K m (u n)). Proof. unfold ok. intros H E. rewrite E in H. exact H. Qed.

(** an instruction changes its destination only *)
Definition dest (i : instr) : nat := match i with Add r _ _ | Sub r _ _ | Dbl r _ | Neg r _ | Copy r _ => r end.
Definition good (i : instr) (m m' : mem) (D : point K) : Prop := frameU (u (dest i)) m m' /\ ok m' (dest i) /\ den m' (dest i) = D.
Lemma resP_good i m m' v D : kd (dest i) = true -> resP m' m (u (dest i)) v -> valid4 K a b v -> den4 K v = D -> good i m m' D.
Proof. intros E [V F] H1 H3. unfold good, ok, den. rewrite E, V. auto. Qed.
Lemma resA_good i m m' v D : kd (dest i) = false -> resA m' m (u (dest i)) v -> valid2 K a b v -> den2 K v = D -> good i m m' D.
Proof. intros E [V F] H1 H3. unfold good, ok, den. rewrite E, V. auto. Qed.
Lemma resA_goodP i m m' v D : kd (dest i) = false -> resA m' m (u (dest i)) (toA K v) -> valid4 K a b v -> den4 K v = D -> good i m m' D.
Proof.
  intros E R V H. apply valid_w in V. eapply resA_good; [exact E|exact R|apply toA_valid; auto|]. rewrite (toA_den K a b) by auto. exact H.
Qed.
Definition sval (i : instr) (e : nat -> point K) : point K :=
  match i with
  | Add r p q => gplus K a (e p) (e q) | Sub r p q => gplus K a (e p) (gopp K (e q)) | Dbl r p => gplus K a (e p) (e p)
  | Neg r p => gopp K (e p) | Copy r p => e p
  end.
Lemma gopp_den4 p : valid4 K a b p -> den4 K (neg4 K p) = gopp K (den4 K p).
Proof. intros H. apply valid_w in H. destruct (neg4_den K a b HF p H) as [E _]. exact E. Qed.
Ltac side := match goal with
  | |- valid4 K a b (add44 _ _ _ _) => apply add44_valid; auto
  | |- valid4 K a b (add42 _ _ _ _) => apply add42_valid; auto
  | |- valid4 K a b (add22 _ _ _ _) => apply add22_valid; auto
  | |- valid4 K a b (dbl4 _ _ _) => apply dbl4_valid; auto
  | |- valid4 K a b (dbl2 _ _ _) => apply dbl2_valid; auto
  | |- valid4 K a b (neg4 _ _) => apply neg4_valid; auto
  | |- valid2 K a b (neg2 _ _) => apply neg2_valid; auto
  | |- valid4 K a b (toP _ _) => apply valid_toP; auto
  end.
Lemma exec_good i m : m_ok m -> safe1 i m -> good i m (exec i m) (sval i (den m)).
Proof.
  intros OK S.
  assert (Pd : forall n, kd n = true -> valid4 K a b (valP K m (u n)) /\ den m n = den4 K (valP K m (u n)) /\ wvalid4 K a b (valP K m (u n)))
    by (intros n E; pose proof (ok_p m n (OK n) E) as V; split; [exact V|split; [unfold den; rewrite E; reflexivity|apply valid_w, V]]).
  assert (Ad : forall n, kd n = false -> valid2 K a b (valA K m (u n)) /\ den m n = den2 K (valA K m (u n)) /\ on_curve K a b (den2 K (valA K m (u n))))
    by (intros n E; pose proof (ok_a m n (OK n) E) as V; split; [exact V|split; [unfold den; rewrite E; reflexivity|exact V]]).
  destruct i as [r p q|r p q|r p|r p|r p]; cbn [exec sval].
  - destruct (kd r) eqn:Er, (kd p) eqn:Ep, (kd q) eqn:Eq;
      (first [destruct (Pd p Ep) as (Vp & -> & Wp)|destruct (Ad p Ep) as (Vp & -> & Wp)]);
      (first [destruct (Pd q Eq) as (Vq & Dq & Wq)|destruct (Ad q Eq) as (Vq & Dq & Wq)]); rewrite Dq.
    + eapply resP_good; [exact Er|apply PPP_add_res|side|apply (add44_den K a b HF); auto].
    + eapply resP_good; [exact Er|apply PPA_add_res|side|apply (add42_den K a b HF); auto].
    + eapply resP_good; [exact Er|apply PAP_add_res|side|]. rewrite (gplus_comm K a b HF) by (auto; apply Wq). apply (add42_den K a b HF); auto.
    + eapply resP_good; [exact Er|apply PAA_add_res|side|apply (add22_den K a b HF); auto].
    + eapply resA_goodP; [exact Er|apply APP_add_res|side|apply (add44_den K a b HF); auto].
    + eapply resA_goodP; [exact Er|apply APA_add_res|side|apply (add42_den K a b HF); auto].
    + eapply resA_goodP; [exact Er|apply AAP_add_res|side|]. rewrite (gplus_comm K a b HF) by (auto; apply Wq). apply (add42_den K a b HF); auto.
    + eapply resA_goodP; [exact Er|apply AAA_add_res|side|apply (add22_den K a b HF); auto].
  - assert (L : loc2 (u p) = false) by reflexivity.
    destruct (kd r) eqn:Er, (kd p) eqn:Ep, (kd q) eqn:Eq;
      (first [destruct (Pd p Ep) as (Vp & -> & Wp)|destruct (Ad p Ep) as (Vp & -> & Wp)]);
      (first [destruct (Pd q Eq) as (Vq & Dq & Wq); pose proof (neg4_valid K a b HF _ Vq) as Vn; pose proof (valid_w _ _ _ _ Vn) as Wn; rewrite Dq, <- (gopp_den4 _ Vq)
             |destruct (Ad q Eq) as (Vq & Dq & Wq); pose proof (neg2_valid K a b HF _ Vq) as Vn; rewrite Dq, <- (neg2_den K HF)]).
    + eapply resP_good; [exact Er|apply PPP_sub_res, L|apply add44_valid; auto|apply (add44_den K a b HF); auto].
    + eapply resP_good; [exact Er|apply PPA_sub_res, L|apply add42_valid; auto|apply (add42_den K a b HF); auto].
    + eapply resP_good; [exact Er|apply PAP_sub_res, L|apply add42_valid; auto|]. rewrite (gplus_comm K a b HF) by (auto; apply Wn). apply (add42_den K a b HF); auto.
    + eapply resP_good; [exact Er|apply PAA_sub_res, L|apply add22_valid; auto|apply (add22_den K a b HF); auto].
    + eapply resA_goodP; [exact Er|apply APP_sub_res, L|apply add44_valid; auto|apply (add44_den K a b HF); auto].
    + eapply resA_goodP; [exact Er|apply APA_sub_res, L|apply add42_valid; auto|apply (add42_den K a b HF); auto].
    + eapply resA_goodP; [exact Er|apply AAP_sub_res, L|apply add42_valid; auto|]. rewrite (gplus_comm K a b HF) by (auto; apply Wn). apply (add42_den K a b HF); auto.
    + eapply resA_goodP; [exact Er|apply AAA_sub_res, L|apply add22_valid; auto|apply (add22_den K a b HF); auto].
  - destruct (kd r) eqn:Er, (kd p) eqn:Ep; (first [destruct (Pd p Ep) as (Vp & -> & Wp)|destruct (Ad p Ep) as (Vp & -> & Wp)]).
    + eapply resP_good; [exact Er|apply PP_dbl_res|side|apply (dbl4_den K a b HF); auto].
    + eapply resP_good; [exact Er|apply PA_dbl_res|side|apply (dbl2_den K a b HF); auto].
    + eapply resA_goodP; [exact Er|apply AP_dbl_res|side|apply (dbl4_den K a b HF); auto].
    + eapply resA_goodP; [exact Er|apply AA_dbl_res|side|apply (dbl2_den K a b HF); auto].
  - destruct (kd r) eqn:Er, (kd p) eqn:Ep.
    + destruct (Pd p Ep) as (Vp & -> & Wp). eapply resP_good; [exact Er|apply PP_neg_res|side|apply gopp_den4, Vp].
    + specialize (S Er Ep). destruct (Ad p Ep) as (Vp & Dp & Wp). rewrite Dp in *.
      assert (E : toP K (neg2 K (valA K m (u p))) = P4 K (m (C 0 (u p))) (ropp (m (C 1 (u p)))) r1 r1).
      { unfold toP. destruct (isz2 K (neg2 K (valA K m (u p)))) eqn:Z; [|reflexivity]. exfalso. apply (isz2_den K) in Z. rewrite (neg2_den K HF) in Z.
        apply S. destruct (den2 K (valA K m (u p))); [reflexivity|discriminate]. }
      eapply resP_good; [exact Er|apply PA_neg_res|rewrite <- E; apply valid_toP; [exact HF|apply (neg2_valid K a b HF), Vp]|]. rewrite <- E, (den_toP K HF). apply (neg2_den K HF).
    + destruct (Pd p Ep) as (Vp & -> & Wp). eapply resA_good; [exact Er|apply AP_neg_res|apply (neg2_valid K a b HF), toA_valid; auto|].
      rewrite (neg2_den K HF), (toA_den K a b) by auto. reflexivity.
    + destruct (Ad p Ep) as (Vp & -> & Wp). eapply resA_good; [exact Er|apply AA_neg_res|side|apply (neg2_den K HF)].
  - destruct (kd r) eqn:Er, (kd p) eqn:Ep; (first [destruct (Pd p Ep) as (Vp & -> & Wp)|destruct (Ad p Ep) as (Vp & -> & Wp)]).
    + eapply resP_good; [exact Er|apply PP_copy_res|exact Vp|reflexivity].
    + eapply resP_good; [exact Er|apply PA_copy_res|side|apply den_toP, HF].
    + eapply resA_goodP; [exact Er|apply AP_copy_res|exact Vp|reflexivity].
    + eapply resA_good; [exact Er|apply AA_copy_res|exact Vp|reflexivity].
Qed.

(** the other objects are untouched *)
Lemma good_other i m m' D n : good i m m' D -> n <> dest i -> valP K m' (u n) = valP K m (u n) /\ valA K m' (u n) = valA K m (u n).
Proof.
  intros (F & _) N. assert (E : forall j, m' (C j (u n)) = m (C j (u n))).
  { intros j. apply F; [|reflexivity]. rewrite inside_root. cbn. apply Nat.eqb_neq. congruence. }
  unfold valP, valA. rewrite !E. auto.
Qed.
Lemma exec_ok i m : m_ok m -> safe1 i m -> m_ok (exec i m) /\ forall n, den (exec i m) n = sexec i (den m) n.
Proof.
  intros OK S. pose proof (exec_good i m OK S) as G.
  assert (A : forall n, ok (exec i m) n /\ den (exec i m) n = if n =? dest i then sval i (den m) else den m n).
  { intros n. destruct (n =? dest i) eqn:E.
    - apply Nat.eqb_eq in E. subst n. split; apply G.
    - apply Nat.eqb_neq in E. destruct (good_other i m _ _ n G E) as [E1 E2]. unfold ok, den. rewrite E1, E2. split; [apply OK|reflexivity]. }
  split; [intros n; apply A|]. intros n. destruct (A n) as [_ ->]. destruct i; reflexivity.
Qed.
Lemma sexec_ext i e e' : (forall n, e n = e' n) -> forall n, sexec i e n = sexec i e' n.
Proof. intros H n. destruct i; unfold sexec, set; destruct (n =? r); rewrite ?H; reflexivity. Qed.
Lemma srun_ext l : forall e e', (forall n, e n = e' n) -> forall n, srun l e n = srun l e' n.
Proof. induction l as [|i l IH]; intros e e' H n; [apply H|]. cbn. apply IH, sexec_ext, H. Qed.
Lemma run_ok l : forall m, m_ok m -> safe l m -> m_ok (run l m) /\ forall n, den (run l m) n = srun l (den m) n.
Proof.
  induction l as [|i l IH]; intros m OK S; [split; [exact OK|reflexivity]|]. destruct S as [S1 S2]. destruct (exec_ok i m OK S1) as [O E].
  destruct (IH _ O S2) as [O' E']. split; [exact O'|]. intros n. cbn [run]. rewrite E'. cbn. apply srun_ext, E.
Qed.
End CP.
