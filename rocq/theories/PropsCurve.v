(** Properties C28-C31: curve arithmetic in extended Jacobian coordinates. *)
From Coq Require Import ZArith List Bool.
From Verif Require Import Tower TowerAlg TowerFacts TowerFacts2 Zp Curve CurveFacts CurveAlg CurveProg.
Import ListNotations.

(** ** C28: the operations compute the chord-and-tangent law *)
(** [den4]/[den2] give the point an object denotes, [gplus]/[gopp] the law;
    destinations and operands are arbitrary, possibly equal, objects. The
    coordinates of a point at infinity are unconstrained ([wvalid4]). *)
Theorem C28_add : forall (K : rng) (a b : K), is_field K -> forall (m : mem K) r p q,
  (wvalid4 K a b (valP K m p) -> wvalid4 K a b (valP K m q) ->
     den4 K (valP K (PPP_add K a r p q m) r) = gplus K a (den4 K (valP K m p)) (den4 K (valP K m q)) /\ wvalid4 K a b (valP K (PPP_add K a r p q m) r)) /\
  (wvalid4 K a b (valP K m p) -> valid2 K a b (valA K m q) ->
     den4 K (valP K (PPA_add K a r p q m) r) = gplus K a (den4 K (valP K m p)) (den2 K (valA K m q)) /\ wvalid4 K a b (valP K (PPA_add K a r p q m) r)) /\
  (valid2 K a b (valA K m p) -> wvalid4 K a b (valP K m q) ->
     den4 K (valP K (PAP_add K a r p q m) r) = gplus K a (den2 K (valA K m p)) (den4 K (valP K m q)) /\ wvalid4 K a b (valP K (PAP_add K a r p q m) r)) /\
  (valid2 K a b (valA K m p) -> valid2 K a b (valA K m q) ->
     den4 K (valP K (PAA_add K a r p q m) r) = gplus K a (den2 K (valA K m p)) (den2 K (valA K m q)) /\ wvalid4 K a b (valP K (PAA_add K a r p q m) r)).
Proof.
  intros K a b HF m r p q. split; [|split; [|split]]; intros Hp Hq;
    rewrite ?(proj1 (PPP_add_res K a r p q m)), ?(proj1 (PPA_add_res K a r p q m)), ?(proj1 (PAP_add_res K a r p q m)), ?(proj1 (PAA_add_res K a r p q m)).
  - apply add44_den; auto.
  - apply (add42_den K a b); auto.
  - rewrite (gplus_comm K a b HF); [apply (add42_den K a b); auto|exact Hp|apply Hq].
  - apply add22_den; auto.
Qed.
Print Assumptions C28_add.
(** affine destinations (the result goes through a local Point and an inversion) *)
Theorem C28_add_affine : forall (K : rng) (a b : K), is_field K -> b <> r0 -> forall (m : mem K) r p q,
  (wvalid4 K a b (valP K m p) -> wvalid4 K a b (valP K m q) ->
     den2 K (valA K (APP_add K a r p q m) r) = gplus K a (den4 K (valP K m p)) (den4 K (valP K m q)) /\ valid2 K a b (valA K (APP_add K a r p q m) r)) /\
  (wvalid4 K a b (valP K m p) -> valid2 K a b (valA K m q) ->
     den2 K (valA K (APA_add K a r p q m) r) = gplus K a (den4 K (valP K m p)) (den2 K (valA K m q)) /\ valid2 K a b (valA K (APA_add K a r p q m) r)) /\
  (valid2 K a b (valA K m p) -> wvalid4 K a b (valP K m q) ->
     den2 K (valA K (AAP_add K a r p q m) r) = gplus K a (den2 K (valA K m p)) (den4 K (valP K m q)) /\ valid2 K a b (valA K (AAP_add K a r p q m) r)) /\
  (valid2 K a b (valA K m p) -> valid2 K a b (valA K m q) ->
     den2 K (valA K (AAA_add K a r p q m) r) = gplus K a (den2 K (valA K m p)) (den2 K (valA K m q)) /\ valid2 K a b (valA K (AAA_add K a r p q m) r)).
Proof.
  intros K a b HF Hb m r p q. split; [|split; [|split]]; intros Hp Hq;
    rewrite ?(proj1 (APP_add_res K a r p q m)), ?(proj1 (APA_add_res K a r p q m)), ?(proj1 (AAP_add_res K a r p q m)), ?(proj1 (AAA_add_res K a r p q m)).
  - destruct (add44_den K a b HF _ _ Hp Hq) as [<- W]. split; [apply (toA_den K a b); auto|apply toA_valid; auto].
  - destruct (add42_den K a b HF _ _ Hp Hq) as [<- W]. split; [apply (toA_den K a b); auto|apply toA_valid; auto].
  - rewrite (gplus_comm K a b HF); [|exact Hp|apply Hq]. destruct (add42_den K a b HF _ _ Hq Hp) as [<- W]. split; [apply (toA_den K a b); auto|apply toA_valid; auto].
  - destruct (add22_den K a b HF _ _ Hp Hq) as [<- W]. split; [apply (toA_den K a b); auto|apply toA_valid; auto].
Qed.
Print Assumptions C28_add_affine.
(** subtraction: the first operand must not be one of the operations' own
    locals ([loc2]); everything else may coincide *)
Theorem C28_sub : forall (K : rng) (a b : K), is_field K -> forall (m : mem K) r p q, loc2 p = false ->
  (wvalid4 K a b (valP K m p) -> wvalid4 K a b (valP K m q) ->
     den4 K (valP K (PPP_sub K a r p q m) r) = gplus K a (den4 K (valP K m p)) (gopp K (den4 K (valP K m q))) /\ wvalid4 K a b (valP K (PPP_sub K a r p q m) r)) /\
  (wvalid4 K a b (valP K m p) -> valid2 K a b (valA K m q) ->
     den4 K (valP K (PPA_sub K a r p q m) r) = gplus K a (den4 K (valP K m p)) (gopp K (den2 K (valA K m q))) /\ wvalid4 K a b (valP K (PPA_sub K a r p q m) r)) /\
  (valid2 K a b (valA K m p) -> wvalid4 K a b (valP K m q) ->
     den4 K (valP K (PAP_sub K a r p q m) r) = gplus K a (den2 K (valA K m p)) (gopp K (den4 K (valP K m q))) /\ wvalid4 K a b (valP K (PAP_sub K a r p q m) r)) /\
  (valid2 K a b (valA K m p) -> valid2 K a b (valA K m q) ->
     den4 K (valP K (PAA_sub K a r p q m) r) = gplus K a (den2 K (valA K m p)) (gopp K (den2 K (valA K m q))) /\ wvalid4 K a b (valP K (PAA_sub K a r p q m) r)).
Proof.
  intros K a b HF m r p q L. split; [|split; [|split]]; intros Hp Hq;
    rewrite ?(proj1 (PPP_sub_res K a r p q m L)), ?(proj1 (PPA_sub_res K a r p q m L)), ?(proj1 (PAP_sub_res K a r p q m L)), ?(proj1 (PAA_sub_res K a r p q m L)).
  - destruct (neg4_den K a b HF _ Hq) as [<- Wn]. apply add44_den; auto.
  - rewrite <- (neg2_den K HF). apply (add42_den K a b); auto. apply neg2_valid; auto.
  - destruct (neg4_den K a b HF _ Hq) as [<- Wn]. rewrite (gplus_comm K a b HF); [apply (add42_den K a b); auto|exact Hp|apply Wn].
  - rewrite <- (neg2_den K HF). apply add22_den; auto. apply neg2_valid; auto.
Qed.
Print Assumptions C28_sub.
Theorem C28_dbl : forall (K : rng) (a b : K), is_field K -> forall (m : mem K) r p,
  (wvalid4 K a b (valP K m p) ->
     den4 K (valP K (PP_dbl K a r p m) r) = gplus K a (den4 K (valP K m p)) (den4 K (valP K m p)) /\ wvalid4 K a b (valP K (PP_dbl K a r p m) r)) /\
  (valid2 K a b (valA K m p) ->
     den4 K (valP K (PA_dbl K a r p m) r) = gplus K a (den2 K (valA K m p)) (den2 K (valA K m p)) /\ wvalid4 K a b (valP K (PA_dbl K a r p m) r)) /\
  (b <> r0 -> wvalid4 K a b (valP K m p) ->
     den2 K (valA K (AP_dbl K a r p m) r) = gplus K a (den4 K (valP K m p)) (den4 K (valP K m p)) /\ valid2 K a b (valA K (AP_dbl K a r p m) r)) /\
  (b <> r0 -> valid2 K a b (valA K m p) ->
     den2 K (valA K (AA_dbl K a r p m) r) = gplus K a (den2 K (valA K m p)) (den2 K (valA K m p)) /\ valid2 K a b (valA K (AA_dbl K a r p m) r)).
Proof.
  intros K a b HF m r p. rewrite (proj1 (PP_dbl_res K a r p m)), (proj1 (PA_dbl_res K a r p m)), (proj1 (AP_dbl_res K a r p m)), (proj1 (AA_dbl_res K a r p m)).
  split; [apply dbl4_den, HF|]. split; [apply dbl2_den, HF|].
  split; intros Hb Hp; [destruct (dbl4_den K a b HF _ Hp) as [<- W]|destruct (dbl2_den K a b HF _ Hp) as [<- W]]; (split; [apply (toA_den K a b)|apply toA_valid]; auto).
Qed.
Print Assumptions C28_dbl.
(** Only the destination (and locals) are written, by every operation. *)
Theorem C28_frame : forall (K : rng) (a : K) (m : mem K) r p q, loc2 p = false ->
  (forall f, In f [PPP_add K a; PPA_add K a; PAP_add K a; PAA_add K a; APP_add K a; APA_add K a; AAP_add K a; AAA_add K a;
                   PPP_sub K a; PPA_sub K a; PAP_sub K a; PAA_sub K a; APP_sub K a; APA_sub K a; AAP_sub K a; AAA_sub K a] ->
     forall c, inside r c = false -> loc2 c = false -> f r p q m c = m c) /\
  (forall f, In f [PP_dbl K a; PA_dbl K a; AP_dbl K a; AA_dbl K a; PP_neg K; PA_neg K; AP_neg K; AA_neg K; PP_copy K; PA_copy K; AP_copy K; AA_copy K] ->
     forall c, inside r c = false -> loc2 c = false -> f r p m c = m c).
Proof.
  intros K a m r p q L. split; intros f H; cbn [In] in H; repeat destruct H as [<-|H]; try destruct H; intros c Hc Lc;
    lazymatch goal with
    | |- PPP_add _ _ _ _ _ _ _ = _ => apply (proj2 (PPP_add_res K a r p q m)); assumption
    | |- PPP_sub _ _ _ _ _ _ _ = _ => apply (proj2 (PPP_sub_res K a r p q m L)); assumption
    | |- PPA_add _ _ _ _ _ _ _ = _ => apply (proj2 (PPA_add_res K a r p q m)); assumption
    | |- PPA_sub _ _ _ _ _ _ _ = _ => apply (proj2 (PPA_sub_res K a r p q m L)); assumption
    | |- PAP_add _ _ _ _ _ _ _ = _ => apply (proj2 (PAP_add_res K a r p q m)); assumption
    | |- PAP_sub _ _ _ _ _ _ _ = _ => apply (proj2 (PAP_sub_res K a r p q m L)); assumption
    | |- PAA_add _ _ _ _ _ _ _ = _ => apply (proj2 (PAA_add_res K a r p q m)); assumption
    | |- PAA_sub _ _ _ _ _ _ _ = _ => apply (proj2 (PAA_sub_res K a r p q m L)); assumption
    | |- APP_add _ _ _ _ _ _ _ = _ => apply (proj2 (APP_add_res K a r p q m)); assumption
    | |- APP_sub _ _ _ _ _ _ _ = _ => apply (proj2 (APP_sub_res K a r p q m L)); assumption
    | |- APA_add _ _ _ _ _ _ _ = _ => apply (proj2 (APA_add_res K a r p q m)); assumption
    | |- APA_sub _ _ _ _ _ _ _ = _ => apply (proj2 (APA_sub_res K a r p q m L)); assumption
    | |- AAP_add _ _ _ _ _ _ _ = _ => apply (proj2 (AAP_add_res K a r p q m)); assumption
    | |- AAP_sub _ _ _ _ _ _ _ = _ => apply (proj2 (AAP_sub_res K a r p q m L)); assumption
    | |- AAA_add _ _ _ _ _ _ _ = _ => apply (proj2 (AAA_add_res K a r p q m)); assumption
    | |- AAA_sub _ _ _ _ _ _ _ = _ => apply (proj2 (AAA_sub_res K a r p q m L)); assumption
    | |- PP_dbl _ _ _ _ _ _ = _ => apply (proj2 (PP_dbl_res K a r p m)); assumption
    | |- PP_neg _ _ _ _ _ = _ => apply (proj2 (PP_neg_res K r p m)); assumption
    | |- PP_copy _ _ _ _ _ = _ => apply (proj2 (PP_copy_res K r p m)); assumption
    | |- PA_dbl _ _ _ _ _ _ = _ => apply (proj2 (PA_dbl_res K a r p m)); assumption
    | |- PA_neg _ _ _ _ _ = _ => apply (proj2 (PA_neg_res K r p m)); assumption
    | |- PA_copy _ _ _ _ _ = _ => apply (proj2 (PA_copy_res K r p m)); assumption
    | |- AP_dbl _ _ _ _ _ _ = _ => apply (proj2 (AP_dbl_res K a r p m)); assumption
    | |- AP_neg _ _ _ _ _ = _ => apply (proj2 (AP_neg_res K r p m)); assumption
    | |- AP_copy _ _ _ _ _ = _ => apply (proj2 (AP_copy_res K r p m)); assumption
    | |- AA_dbl _ _ _ _ _ _ = _ => apply (proj2 (AA_dbl_res K a r p m)); assumption
    | |- AA_neg _ _ _ _ _ = _ => apply (proj2 (AA_neg_res K r p m)); assumption
    | |- AA_copy _ _ _ _ _ = _ => apply (proj2 (AA_copy_res K r p m)); assumption
    end.
Qed.
Print Assumptions C28_frame.
(** The law used as specification: closed, commutative, with neutral and inverse elements. *)
Theorem C28_law : forall (K : rng) (a b : K), is_field K -> forall P Q, on_curve K a b P -> on_curve K a b Q ->
  on_curve K a b (gplus K a P Q) /\ gplus K a P Q = gplus K a Q P /\ gplus K a (Inf K) P = P /\ on_curve K a b (gopp K P) /\ gplus K a P (gopp K P) = Inf K.
Proof.
  intros K a b HF P Q HP HQ. split; [apply gplus_on; auto|]. split; [apply (gplus_comm K a b HF); auto|]. split; [reflexivity|].
  split; [apply (gopp_on K a b HF), HP|].
  destruct P as [|x y]; [reflexivity|]. cbn. rewrite reqb_refl. rewrite (opp_opp K HF). rewrite reqb_refl. reflexivity.
Qed.
Print Assumptions C28_law.

(** ** C29: sequences of operations *)
(** [run] executes a list of additions, subtractions, doublings, negations and
    copies on an array of objects, selecting the overload by their kinds
    ([kd n]: the n-th is a Point). All objects stay valid and denote what the
    group law gives. Excluded ([safe]) is neg(Point&, PointAffine&) on the
    affine infinity, see below. *)
Theorem C29_sequences_partial : forall (K : rng) (a b : K) (kd : nat -> bool), is_field K -> b <> r0 -> radd r1 r1 <> (r0 : K) -> disc K a b <> r0 ->
  forall (l : list instr) (m : mem K), (forall n, ok K a b kd m n) -> safe K a kd l m ->
  (forall n, ok K a b kd (run K a kd l m) n) /\ (forall n, den K kd (run K a kd l m) n = srun K a l (den K kd m) n).
Proof. intros K a b kd HF Hb H2 HD l m. apply run_ok; auto. Qed.
Print Assumptions C29_sequences_partial.

(** ** C30: equality *)
Theorem C30_eq_partial : forall (K : rng) (a b : K), is_field K -> forall (m : mem K) p q,
  (valid4 K a b (valP K m p) -> valid4 K a b (valP K m q) -> (PP_eq K p q m = true <-> den4 K (valP K m p) = den4 K (valP K m q))) /\
  (b <> r0 -> wvalid4 K a b (valP K m p) -> (PA_eq K p q m = true <-> den4 K (valP K m p) = den2 K (valA K m q))) /\
  (b <> r0 -> wvalid4 K a b (valP K m q) -> (AP_eq K p q m = true <-> den2 K (valA K m p) = den4 K (valP K m q))) /\
  (AA_eq K p q m = true <-> den2 K (valA K m p) = den2 K (valA K m q)).
Proof.
  intros K a b HF m p q. unfold AP_eq. rewrite PP_eq_at, !PA_eq_at, AA_eq_at.
  split; [apply (eq44_den K a b), HF|]. split; [apply (eq42_den K a b), HF|]. split; [|apply eq22_den].
  intros Hb Hq. rewrite (eq42_den K a b HF _ _ Hb Hq). split; congruence.
Qed.
Print Assumptions C30_eq_partial.

(** ** C31: copies and negations *)
Theorem C31_copy : forall (K : rng) (a b : K), is_field K -> b <> r0 -> forall (m : mem K) r p,
  den4 K (valP K (PP_copy K r p m) r) = den4 K (valP K m p) /\
  den4 K (valP K (PA_copy K r p m) r) = den2 K (valA K m p) /\
  (wvalid4 K a b (valP K m p) -> den2 K (valA K (AP_copy K r p m) r) = den4 K (valP K m p)) /\
  den2 K (valA K (AA_copy K r p m) r) = den2 K (valA K m p).
Proof.
  intros K a b HF Hb m r p. rewrite (proj1 (PP_copy_res K r p m)), (proj1 (PA_copy_res K r p m)), (proj1 (AP_copy_res K r p m)), (proj1 (AA_copy_res K r p m)).
  split; [reflexivity|]. split; [apply den_toP, HF|]. split; [intros W; apply (toA_den K a b); auto|reflexivity].
Qed.
Print Assumptions C31_copy.
Theorem C31_neg_partial : forall (K : rng) (a b : K), is_field K -> b <> r0 -> forall (m : mem K) r p,
  (wvalid4 K a b (valP K m p) -> den4 K (valP K (PP_neg K r p m) r) = gopp K (den4 K (valP K m p))) /\
  (wvalid4 K a b (valP K m p) -> den2 K (valA K (AP_neg K r p m) r) = gopp K (den4 K (valP K m p))) /\
  den2 K (valA K (AA_neg K r p m) r) = gopp K (den2 K (valA K m p)) /\
  (den2 K (valA K m p) <> Inf K -> den4 K (valP K (PA_neg K r p m) r) = gopp K (den2 K (valA K m p))).
Proof.
  intros K a b HF Hb m r p. rewrite (proj1 (PP_neg_res K r p m)), (proj1 (AP_neg_res K r p m)), (proj1 (AA_neg_res K r p m)), (proj1 (PA_neg_res K r p m)).
  split; [apply neg4_den, HF|]. split; [intros W; rewrite (neg2_den K HF), (toA_den K a b); auto|]. split; [apply neg2_den, HF|].
  intros N. rewrite <- (neg2_den K HF), <- (den_toP K HF). unfold toP. destruct (isz2 K (neg2 K (valA K m p))) eqn:Z; [|reflexivity].
  exfalso. apply (isz2_den K) in Z. rewrite (neg2_den K HF) in Z. destruct (den2 K (valA K m p)); [congruence|discriminate].
Qed.
Print Assumptions C31_neg_partial.

(** ** a curve over the field with 7 elements: y^2 = x^3 + x + 3, 6 points *)
Definition ca := f7 1. Definition cb := f7 3.
Definition kd7 (n : nat) : bool := match n with 0%nat | 1%nat | 4%nat => true | _ => false end.
(** objects 0: (4, 1) with z = 2; 1: (6, 1); 2: affine (5, 0); 3: affine
    infinity; 4: infinity as (1, 1, 0, 0); 5: all cells zero; others zero *)
Definition c7 : mem F7 := fun l => f7 match l with
  | C i (R (User 0%nat)) => match i with 0%nat => 2 | 1%nat => 1 | 2%nat => 4 | _ => 1 end
  | C i (R (User 1%nat)) => match i with 0%nat => 6 | _ => 1 end
  | C i (R (User 2%nat)) => match i with 0%nat => 5 | _ => 0 end
  | C i (R (User 4%nat)) => match i with 0%nat | 1%nat => 1 | _ => 0 end
  | _ => 0 end%Z.
Definition showp (P : point F7) : option (Z * Z) := match P with Inf _ => None | Aff _ x y => Some (zv x, zv y) end.

Lemma c7_curve : is_field F7 /\ cb <> r0 /\ radd r1 r1 <> (r0 : F7) /\ disc F7 ca cb <> r0.
Proof. split; [exact F7_field|]. repeat split; apply (req_false F7); vm_compute; reflexivity. Qed.
Lemma c7_ok n : ok F7 ca cb kd7 c7 n.
Proof.
  unfold ok. destruct n as [|[|[|[|[|n]]]]]; cbn [kd7].
  - split; [intros E; apply (f_equal zv) in E; vm_compute in E; discriminate|]. split; [intros _|]; apply zp_eq; vm_compute; reflexivity.
  - split; [intros E; apply (f_equal zv) in E; vm_compute in E; discriminate|]. split; [intros _|]; apply zp_eq; vm_compute; reflexivity.
  - apply zp_eq; vm_compute; reflexivity.
  - exact I.
  - split; [|split; [intros N; destruct N; apply zp_eq; reflexivity|exact I]].
    intros _. split; [apply zp_eq; reflexivity|]. intros [E _]. apply (f_equal zv) in E. vm_compute in E. discriminate.
  - exact I.
Qed.
Notation o n := (R (User n)).
(** sum of different points, doubling in place, inverse points, 2-torsion, infinity *)
Example C28_ex :
  showp (den4 F7 (valP F7 c7 (o 0))) = Some (4, 1)%Z /\ wvalid4 F7 ca cb (valP F7 c7 (o 0)) /\ wvalid4 F7 ca cb (valP F7 c7 (o 1)) /\
  showp (den4 F7 (valP F7 (PPP_add F7 ca (o 0) (o 0) (o 1) c7) (o 0))) = Some (4, 6)%Z /\
  showp (den4 F7 (valP F7 (PPP_add F7 ca (o 0) (o 0) (o 0) c7) (o 0))) = Some (6, 6)%Z /\
  showp (den4 F7 (valP F7 (PPP_sub F7 ca (o 5) (o 0) (o 0) c7) (o 5))) = None /\
  showp (den4 F7 (valP F7 (PAA_add F7 ca (o 5) (o 2) (o 2) c7) (o 5))) = None /\
  showp (den4 F7 (valP F7 (PPA_add F7 ca (o 5) (o 4) (o 2) c7) (o 5))) = Some (5, 0)%Z /\
  showp (den2 F7 (valA F7 (APP_sub F7 ca (o 5) (o 0) (o 1) c7) (o 5))) = Some (5, 0)%Z.
Proof. split; [vm_compute; reflexivity|]. split; [apply valid_w, (c7_ok 0)|]. split; [apply valid_w, (c7_ok 1)|]. repeat split; vm_compute; reflexivity. Qed.
Definition prog7 : list instr := [Add 0 0 1; Dbl 0 0; Sub 2 1 2; Neg 4 1; Add 4 4 2; Copy 3 0; Neg 3 3].
Example C29_ex : (forall n, ok F7 ca cb kd7 c7 n) /\ safe F7 ca kd7 prog7 c7 /\
  map (fun n => showp (srun F7 ca prog7 (den F7 kd7 c7) n)) (seq 0 6) = [Some (6, 1); Some (6, 1); Some (4, 1); Some (6, 6); Some (5, 0); None]%Z.
Proof. split; [exact c7_ok|]. split; [|vm_compute; reflexivity]. unfold prog7. cbn [safe safe1]. repeat (split; [first [exact I|intros ? A; discriminate A|intros A; discriminate A]|]). exact I. Qed.
(** neg(Point&, PointAffine&) turns the affine infinity into (0, 0, 1, 1),
    which is not a point of the curve. *)
Theorem C29_neg_refuted : exists (K : rng) (a b : K) (kd : nat -> bool) (l : list instr) (m : mem K),
  is_field K /\ b <> r0 /\ radd r1 r1 <> (r0 : K) /\ disc K a b <> r0 /\ (forall n, ok K a b kd m n) /\
  exists n, kd n = true /\ ~ wvalid4 K a b (valP K (run K a kd l m) (R (User n))).
Proof.
  exists F7, ca, cb, kd7, [Neg 0 3], c7. destruct c7_curve as (H1 & H2 & H3 & H4). repeat (split; [first [assumption|exact c7_ok]|]).
  exists 0%nat. split; [reflexivity|]. intros [_ H]. apply (f_equal zv) in H. vm_compute in H. discriminate.
Qed.
Print Assumptions C29_neg_refuted.
(** eq of a finite point with the infinity (0, 0, 0, 0), accepted by isZero, is true. *)
Theorem C30_eq_refuted : exists (K : rng) (a b : K) (m : mem K) p q,
  is_field K /\ b <> r0 /\ radd r1 r1 <> (r0 : K) /\ disc K a b <> r0 /\ wvalid4 K a b (valP K m p) /\ wvalid4 K a b (valP K m q) /\
  P_isZero K q m = true /\ PP_eq K p q m = true /\ den4 K (valP K m p) <> den4 K (valP K m q).
Proof.
  exists F7, ca, cb, c7, (o 0), (o 5). destruct c7_curve as (H1 & H2 & H3 & H4). repeat (split; [assumption|]). split; [apply valid_w, (c7_ok 0)|].
  split; [split; [intros N; destruct N; apply zp_eq; reflexivity|exact I]|]. split; [vm_compute; reflexivity|]. split; [vm_compute; reflexivity|].
  intros H. apply (f_equal showp) in H. vm_compute in H. discriminate.
Qed.
Print Assumptions C30_eq_refuted.
Example C30_ex : valid4 F7 ca cb (valP F7 c7 (o 0)) /\ valid4 F7 ca cb (valP F7 c7 (o 4)) /\ PP_eq F7 (o 0) (o 4) c7 = false /\ PP_eq F7 (o 4) (o 0) c7 = false /\
  PP_eq F7 (o 0) (o 0) c7 = true /\ PA_eq F7 (o 4) (o 3) c7 = true /\ AA_eq F7 (o 2) (o 3) c7 = false.
Proof. split; [apply (c7_ok 0)|]. split; [apply (c7_ok 4)|]. repeat split; vm_compute; reflexivity. Qed.
Theorem C31_neg_refuted : exists (K : rng) (a b : K) (m : mem K) r p,
  is_field K /\ b <> r0 /\ radd r1 r1 <> (r0 : K) /\ disc K a b <> r0 /\ valid2 K a b (valA K m p) /\
  den4 K (valP K (PA_neg K r p m) r) <> gopp K (den2 K (valA K m p)).
Proof.
  exists F7, ca, cb, c7, (o 0), (o 3). destruct c7_curve as (H1 & H2 & H3 & H4). repeat (split; [assumption|]). split; [exact I|].
  intros H. apply (f_equal showp) in H. vm_compute in H. discriminate.
Qed.
Print Assumptions C31_neg_refuted.
Example C31_ex : showp (den2 F7 (valA F7 (AP_copy F7 (o 5) (o 0) c7) (o 5))) = Some (4, 1)%Z /\ showp (den2 F7 (valA F7 (AP_copy F7 (o 2) (o 4) c7) (o 2))) = None /\
  showp (den4 F7 (valP F7 (PA_neg F7 (o 5) (o 2) c7) (o 5))) = Some (5, 0)%Z /\ showp (den2 F7 (valA F7 (AP_neg F7 (o 5) (o 0) c7) (o 5))) = Some (4, 6)%Z.
Proof. repeat split; vm_compute; reflexivity. Qed.
