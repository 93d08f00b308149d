(** Short Weierstrass curves: chord-and-tangent law, extended Jacobian (XYZZ)
    coordinates, and the formulas of c/curve.cpp on values. *)
From Coq Require Import List Bool Ring Field Setoid.
From Verif Require Import Tower TowerAlg Curve CurveFacts.
Import ListNotations.

Section Law.
Variable K : rng.
Variables a b : K.
Add Ring KringD : (r_th K).
Notation "0" := (@r0 K). Notation "1" := (@r1 K).
Infix "+" := (@radd K). Infix "*" := (@rmul K). Infix "-" := (@rsub K). Notation "- x" := (@ropp K x).
Definition rdiv (x y : K) : K := x * rinv y.
Infix "/" := rdiv.

(** ** specification *)
Inductive point := Inf | Aff (x y : K).
Definition on_curve (P : point) : Prop := match P with Inf => True | Aff x y => y * y = x * x * x + a * x + b end.
Definition gopp (P : point) : point := match P with Inf => Inf | Aff x y => Aff x (- y) end.
Definition third (l x1 y1 x2 : K) : point := let x3 := l * l - x1 - x2 in Aff x3 (l * (x1 - x3) - y1).
(** chord and tangent *)
Definition gplus (P Q : point) : point :=
  match P, Q with
  | Inf, _ => Q
  | _, Inf => P
  | Aff x1 y1, Aff x2 y2 =>
      if reqb x1 x2 then
        if reqb y1 (- y2) then Inf else third (((1 + 1 + 1) * (x1 * x1) + a) / (y1 + y1)) x1 y1 x2
      else third ((y2 - y1) / (x2 - x1)) x1 y1 x2
  end.
(** the point a representation denotes *)
Definition den4 (p : pt4 K) : point := if reqb (pzz K p) 0 then Inf else Aff (px K p / pzz K p) (py K p / pzzz K p).
Definition den2 (p : pt2 K) : point := if reqb (ax K p) 0 && reqb (ay K p) 0 then Inf else Aff (ax K p) (ay K p).
(** a valid representation of infinity has zz = zzz = 0 and (x, y) <> (0, 0) *)
Definition valid4 (p : pt4 K) : Prop :=
  (pzz K p = 0 -> pzzz K p = 0 /\ ~ (px K p = 0 /\ py K p = 0)) /\
  (pzz K p <> 0 -> pzz K p * pzz K p * pzz K p = pzzz K p * pzzz K p) /\ on_curve (den4 p).
(** weaker: any representation of infinity *)
Definition wvalid4 (p : pt4 K) : Prop :=
  (pzz K p <> 0 -> pzz K p * pzz K p * pzz K p = pzzz K p * pzzz K p) /\ on_curve (den4 p).
Definition valid2 (p : pt2 K) : Prop := on_curve (den2 p).

(** ** facts *)
Hypothesis HF : is_field K.
Lemma K_ft : field_theory 0 1 (@radd K) (@rmul K) (@rsub K) (@ropp K) rdiv (@rinv K) eq.
Proof.
  constructor; [apply r_th|apply HF|reflexivity|]. intros x Nx. rewrite (Rmul_comm (r_th K)). apply HF, Nx.
Qed.
Add Field KfieldD : K_ft.
Lemma req_true (x y : K) : reqb x y = true -> x = y. Proof. apply reqb_ok. Qed.
Lemma req_false (x y : K) : reqb x y = false -> x <> y. Proof. intros H E. apply reqb_ok in E. congruence. Qed.
Lemma mul_nz (x y : K) : x <> 0 -> y <> 0 -> x * y <> 0.
Proof. intros Hx Hy H. apply (fld_integral K HF) in H. tauto. Qed.
Lemma sub_0 (x y : K) : x - y = 0 <-> x = y.
Proof. split; intros H; [transitivity (x - y + y); [ring|rewrite H; ring]|rewrite H; ring]. Qed.
Lemma add_0 (x y : K) : x + y = 0 <-> x = - y.
Proof. split; intros H; [transitivity (x + y - y); [ring|rewrite H; ring]|rewrite H; ring]. Qed.
Lemma sub_nz (x y : K) : x <> y -> x - y <> 0. Proof. intros H E. apply H, sub_0, E. Qed.

(** equality of squares *)
Lemma sq_eq (x y : K) : x * x = y * y -> x = y \/ x = - y.
Proof.
  intros H. assert (E : (x - y) * (x + y) = 0) by (transitivity (x * x - y * y); [ring|rewrite H; ring]).
  apply (fld_integral K HF) in E. destruct E as [E|E]; [left; apply sub_0, E|right; apply add_0, E].
Qed.

(** the curve is closed under the law *)
Lemma gopp_on P : on_curve P -> on_curve (gopp P).
Proof. destruct P; cbn; [auto|]. intros H. transitivity (y * y); [ring|exact H]. Qed.
Lemma chord_on x1 y1 x2 y2 : x1 <> x2 -> y1 * y1 = x1 * x1 * x1 + a * x1 + b -> y2 * y2 = x2 * x2 * x2 + a * x2 + b ->
  on_curve (third ((y2 - y1) / (x2 - x1)) x1 y1 x2).
Proof.
  intros N H1 H2. cbn. assert (N' : x2 - x1 <> 0) by (apply sub_nz; auto).
  assert (Ea : a = (y2 * y2 - y1 * y1 - (x2 * x2 * x2 - x1 * x1 * x1)) / (x2 - x1)).
  { rewrite H1, H2. field. auto. }
  assert (Eb : b = y1 * y1 - x1 * x1 * x1 - a * x1) by (rewrite H1; ring).
  rewrite Eb, Ea. field. auto.
Qed.
Lemma tangent_on x1 y1 : y1 + y1 <> 0 -> y1 * y1 = x1 * x1 * x1 + a * x1 + b ->
  on_curve (third (((1 + 1 + 1) * (x1 * x1) + a) / (y1 + y1)) x1 y1 x1).
Proof.
  intros N H1. cbn. assert (Eb : b = y1 * y1 - x1 * x1 * x1 - a * x1) by (rewrite H1; ring).
  rewrite Eb. field. auto.
Qed.
Lemma gplus_on P Q : on_curve P -> on_curve Q -> on_curve (gplus P Q).
Proof.
  destruct P as [|x1 y1], Q as [|x2 y2]; cbn [gplus]; auto. intros H1 H2.
  destruct (reqb x1 x2) eqn:Ex; [apply req_true in Ex; subst x2|apply chord_on; auto; apply req_false, Ex].
  destruct (reqb y1 (- y2)) eqn:Ey; [exact I|apply req_false in Ey]. apply tangent_on; [|exact H1].
  cbn in H1, H2. assert (E : y1 * y1 = y2 * y2) by congruence. apply sq_eq in E. destruct E as [E|E]; [|contradiction].
  subst y2. intros E. apply Ey, add_0, E.
Qed.

(** ** representations *)
Definition rep (x y z : K) : pt4 K := P4 K (x * (z * z)) (y * (z * z * z)) (z * z) (z * z * z).
Lemma den_rep x y z : z <> 0 -> den4 (rep x y z) = Aff x y.
Proof.
  intros N. unfold den4, rep. cbn [px py pzz pzzz]. destruct (reqb (z * z) 0) eqn:E; [apply req_true in E; apply (fld_integral K HF) in E; tauto|].
  f_equal; field; auto.
Qed.
Lemma rep_of p : pzz K p <> 0 -> pzz K p * pzz K p * pzz K p = pzzz K p * pzzz K p -> exists x y z, z <> 0 /\ p = rep x y z.
Proof.
  destruct p as [x y zz zzz]. cbn. intros N H.
  assert (N3 : zzz <> 0). { intros E. subst zzz. assert (E : zz * zz * zz = 0) by (rewrite H; ring). apply (fld_integral K HF) in E. destruct E as [E|E]; [apply (fld_integral K HF) in E|]; tauto. }
  exists (x / zz), (y / zzz), (zzz / zz).
  assert (E2 : zzz / zz * (zzz / zz) = zz). { transitivity (zzz * zzz / (zz * zz)); [field; auto|]. rewrite <- H. field. auto. }
  split. { intros E. apply N3. transitivity (zzz / zz * zz); [field; auto|rewrite E; ring]. }
  unfold rep. rewrite E2. f_equal; [field; auto| |].
  - replace (zz * (zzz / zz)) with zzz by (field; auto). field. auto.
  - field. auto.
Qed.
Lemma wvalid_cases p : wvalid4 p -> (pzz K p = 0 /\ den4 p = Inf) \/ (exists x y z, z <> 0 /\ p = rep x y z /\ den4 p = Aff x y /\ on_curve (Aff x y)).
Proof.
  intros [H1 H2]. destruct (rdec K (pzz K p) 0) as [E|N].
  - left. split; [auto|]. unfold den4. rewrite E, reqb_refl. reflexivity.
  - right. destruct (rep_of p N (H1 N)) as (x & y & z & Nz & ->). exists x, y, z. rewrite den_rep in * by auto. auto.
Qed.
Lemma wvalid_rep x y z : z <> 0 -> on_curve (Aff x y) -> wvalid4 (rep x y z).
Proof. intros Nz H. split; [|rewrite den_rep by auto; exact H]. intros _. cbn. ring. Qed.
Lemma valid_w p : valid4 p -> wvalid4 p. Proof. intros (_ & H). exact H. Qed.
Lemma valid_cases p : valid4 p ->
  (exists x y, p = P4 K x y 0 0 /\ ~ (x = 0 /\ y = 0) /\ den4 p = Inf) \/ (exists x y z, z <> 0 /\ p = rep x y z /\ den4 p = Aff x y /\ on_curve (Aff x y)).
Proof.
  intros [H0 H]. destruct (wvalid_cases p H) as [[E D]|?]; [left|right; auto].
  destruct (H0 E) as [E3 N]. destruct p as [x y zz zzz]. cbn in *. subst. exists x, y. auto.
Qed.
Lemma valid_inf x y : ~ (x = 0 /\ y = 0) -> valid4 (P4 K x y 0 0).
Proof. intros N. split; [intros _; cbn; auto|]. split; [cbn; congruence|]. unfold den4. cbn. rewrite reqb_refl. exact I. Qed.
Lemma valid_rep x y z : z <> 0 -> on_curve (Aff x y) -> valid4 (rep x y z).
Proof.
  intros Nz H. split; [|exact (wvalid_rep x y z Nz H)]. cbn. intros E. apply (fld_integral K HF) in E. tauto.
Qed.
Lemma isz4_rep x y z : z <> 0 -> isz4 K (rep x y z) = false.
Proof. intros Nz. unfold isz4, is0, rep. cbn. destruct (reqb (z * z) 0) eqn:E; [|reflexivity]. apply req_true, (fld_integral K HF) in E. tauto. Qed.
Lemma isz4_den p : isz4 K p = true <-> den4 p = Inf.
Proof. unfold isz4, is0, den4. destruct (reqb (pzz K p) 0); split; congruence. Qed.
Lemma isz2_den p : isz2 K p = true <-> den2 p = Inf.
Proof. unfold isz2, is0, den2. destruct (reqb (ax K p) 0 && reqb (ay K p) 0); split; congruence. Qed.

(** ** doubling *)
Lemma dbl_rep x y z : z <> 0 -> let M := (1 + 1 + 1) * (x * x) + a in
  dbl4 K a (rep x y z) = if reqb (y + y) 0 then P4 K (M * M * (z * z * z * z * (z * z * z * z))) (- (M * M * M) * (z * z * z * z * (z * z * z * z) * (z * z * z * z))) 0 0
  else match third (M / (y + y)) x y x with Inf => p_inf K | Aff x3 y3 => rep x3 y3 ((y + y) * (z * z * z * z)) end.
Proof.
  intros Nz M. unfold dbl4. rewrite isz4_rep by auto. unfold rep. cbn [px py pzz pzzz]. cbv zeta.
  destruct (reqb (y + y) 0) eqn:E.
  - apply req_true in E. set (U := y * (z * z * z) + y * (z * z * z)).
    assert (EU : U = 0) by (transitivity ((y + y) * (z * z * z)); [unfold U; ring|rewrite E; ring]). rewrite EU. unfold M. f_equal; ring.
  - apply req_false in E. unfold third, rep, M. cbv zeta. f_equal; field; auto.
Qed.
(** the tangent is not vertical-and-undefined: y = 0 is a simple root *)
Definition disc : K := (1 + 1 + 1 + 1) * (a * a * a) + (1 + 1 + 1) * (1 + 1 + 1) * (1 + 1 + 1) * (b * b).
Lemma simple_root x y : 1 + 1 <> 0 -> disc <> 0 -> on_curve (Aff x y) -> y + y = 0 -> (1 + 1 + 1) * (x * x) + a <> 0.
Proof.
  intros N2 ND H Ey E. assert (Y0 : y = 0). { assert (E2 : (1 + 1) * y = 0) by (rewrite <- Ey; ring). apply (fld_integral K HF) in E2. tauto. }
  subst y. cbn in H. assert (Ea : a = - ((1 + 1 + 1) * (x * x))) by (transitivity ((1 + 1 + 1) * (x * x) + a - (1 + 1 + 1) * (x * x)); [ring|rewrite E; ring]).
  assert (Eb : b = - (x * x * x + a * x)) by (transitivity (x * x * x + a * x + b - (x * x * x + a * x)); [ring|rewrite <- H; ring]).
  apply ND. unfold disc. rewrite Eb, Ea. ring.
Qed.
Lemma third_shape l x y x' : exists x3 y3, third l x y x' = Aff x3 y3.
Proof. unfold third. cbv zeta. eauto. Qed.
Lemma gplus_self x y : gplus (Aff x y) (Aff x y) = if reqb (y + y) 0 then Inf else third (((1 + 1 + 1) * (x * x) + a) / (y + y)) x y x.
Proof.
  cbn [gplus]. rewrite reqb_refl. destruct (reqb (y + y) 0) eqn:E.
  - apply req_true, add_0 in E. rewrite <- E. rewrite reqb_refl. reflexivity.
  - apply req_false in E. destruct (reqb y (- y)) eqn:E2; [|reflexivity]. apply req_true in E2. exfalso. apply E, add_0, E2.
Qed.
Lemma dbl4_den p : wvalid4 p -> den4 (dbl4 K a p) = gplus (den4 p) (den4 p) /\ wvalid4 (dbl4 K a p).
Proof.
  intros H. destruct (wvalid_cases p H) as [[E D]|(x & y & z & Nz & -> & D & O)].
  - unfold dbl4. rewrite (proj2 (isz4_den p) D), D. auto.
  - rewrite D, gplus_self. rewrite dbl_rep by auto. cbv zeta. destruct (reqb (y + y) 0) eqn:E.
    + unfold den4, wvalid4. cbn. rewrite reqb_refl. split; [reflexivity|]. split; [congruence|]. unfold den4. cbn. rewrite reqb_refl. exact I.
    + apply req_false in E. pose proof (tangent_on x y E O) as O3.
      destruct (third_shape (((1 + 1 + 1) * (x * x) + a) / (y + y)) x y x) as (x3 & y3 & E3). rewrite E3 in *.
      assert (N : (y + y) * (z * z * z * z) <> 0) by (repeat apply mul_nz; auto).
      split; [apply den_rep; auto|apply wvalid_rep; auto].
Qed.
Lemma dbl4_valid p : 1 + 1 <> 0 -> disc <> 0 -> valid4 p -> valid4 (dbl4 K a p).
Proof.
  intros N2 ND H. destruct (valid_cases p H) as [(x & y & -> & N & D)|(x & y & z & Nz & -> & D & O)].
  - unfold dbl4. rewrite (proj2 (isz4_den _) D). exact H.
  - rewrite dbl_rep by auto. cbv zeta. destruct (reqb (y + y) 0) eqn:E.
    + apply req_true in E. pose proof (simple_root x y N2 ND O E) as NM. apply valid_inf. intros [E1 _]. revert E1. repeat apply mul_nz; auto.
    + apply req_false in E. pose proof (tangent_on x y E O) as O3.
      destruct (third_shape (((1 + 1 + 1) * (x * x) + a) / (y + y)) x y x) as (x3 & y3 & E3). rewrite E3 in *.
      apply valid_rep; auto. repeat apply mul_nz; auto.
Qed.

(** ** addition *)
Lemma add_rep x1 y1 z1 x2 y2 z2 : z1 <> 0 -> z2 <> 0 ->
  let R := (y2 - y1) * (z1 * z1 * z1 * (z2 * z2 * z2)) in
  add44 K a (rep x1 y1 z1) (rep x2 y2 z2) =
  if reqb x1 x2 then if reqb y1 y2 then dbl4 K a (rep x1 y1 z1) else P4 K (R * R) (- (R * R * R)) 0 0
  else match third ((y2 - y1) / (x2 - x1)) x1 y1 x2 with Inf => p_inf K | Aff x3 y3 => rep x3 y3 (z1 * z2 * ((x2 - x1) * (z1 * z1 * (z2 * z2)))) end.
Proof.
  intros N1 N2 R. unfold add44. rewrite !isz4_rep by auto.
  set (D := dbl4 K a _). unfold rep. cbn [px py pzz pzzz]. cbv zeta.
  set (P := x2 * (z2 * z2) * (z1 * z1) - x1 * (z1 * z1) * (z2 * z2)). set (R' := y2 * (z2 * z2 * z2) * (z1 * z1 * z1) - y1 * (z1 * z1 * z1) * (z2 * z2 * z2)).
  assert (EP : P = (x2 - x1) * (z1 * z1 * (z2 * z2))) by (unfold P; ring). assert (ER : R' = R) by (unfold R', R; ring).
  unfold is0. destruct (reqb x1 x2) eqn:Ex.
  - apply req_true in Ex. subst x2. replace P with 0 by (rewrite EP; ring). rewrite reqb_refl. cbn [andb].
    destruct (reqb y1 y2) eqn:Ey.
    + apply req_true in Ey. subst y2. replace R' with 0 by (rewrite ER; unfold R; ring). rewrite reqb_refl. reflexivity.
    + apply req_false in Ey. assert (NR : R' <> 0). { rewrite ER. unfold R. repeat apply mul_nz; auto. apply sub_nz. auto. }
      destruct (reqb R' 0) eqn:E; [apply req_true in E; contradiction|]. rewrite ER. f_equal; ring.
  - apply req_false in Ex. assert (Nx : x2 - x1 <> 0) by (apply sub_nz; auto).
    assert (NP : P <> 0). { rewrite EP. repeat apply mul_nz; auto. }
    destruct (reqb P 0) eqn:E; [apply req_true in E; contradiction|]. cbn [andb]. rewrite EP, ER. unfold third, R, rep. cbv zeta.
    f_equal; field; auto.
Qed.
Lemma gplus_eqx x y1 y2 : on_curve (Aff x y1) -> on_curve (Aff x y2) -> y1 <> y2 -> gplus (Aff x y1) (Aff x y2) = Inf.
Proof.
  cbn. intros H1 H2 N. rewrite reqb_refl. assert (E : y1 * y1 = y2 * y2) by congruence. apply sq_eq in E. destruct E as [E|E]; [contradiction|].
  rewrite E, reqb_refl. reflexivity.
Qed.
Lemma add44_den p q : wvalid4 p -> wvalid4 q -> den4 (add44 K a p q) = gplus (den4 p) (den4 q) /\ wvalid4 (add44 K a p q).
Proof.
  intros Hp Hq. destruct (wvalid_cases p Hp) as [[E D]|(x1 & y1 & z1 & N1 & Ep & D & O1)].
  { unfold add44. rewrite (proj2 (isz4_den p) D), D. auto. }
  destruct (wvalid_cases q Hq) as [[E D2]|(x2 & y2 & z2 & N2 & Eq & D2 & O2)].
  { unfold add44. destruct (isz4 K p) eqn:Z; [apply isz4_den in Z; congruence|]. rewrite (proj2 (isz4_den q) D2), D, D2. auto. }
  rewrite D, D2. subst p q. rewrite add_rep by auto. cbv zeta. destruct (reqb x1 x2) eqn:Ex.
  - apply req_true in Ex. subst x2. destruct (reqb y1 y2) eqn:Ey.
    + apply req_true in Ey. subst y2. rewrite <- D. apply dbl4_den, Hp.
    + apply req_false in Ey. rewrite gplus_eqx by auto. unfold den4, wvalid4. cbn. rewrite reqb_refl. split; [reflexivity|]. split; [congruence|].
      unfold den4. cbn. rewrite reqb_refl. exact I.
  - cbn [gplus]. rewrite Ex. apply req_false in Ex. pose proof (chord_on x1 y1 x2 y2 Ex O1 O2) as O3.
    destruct (third_shape ((y2 - y1) / (x2 - x1)) x1 y1 x2) as (x3 & y3 & E3). rewrite E3 in *.
    assert (N : z1 * z2 * ((x2 - x1) * (z1 * z1 * (z2 * z2))) <> 0) by (repeat apply mul_nz; auto; apply sub_nz; auto).
    split; [apply den_rep; auto|apply wvalid_rep; auto].
Qed.
Lemma add44_valid p q : 1 + 1 <> 0 -> disc <> 0 -> valid4 p -> valid4 q -> valid4 (add44 K a p q).
Proof.
  intros C2 ND Hp Hq. destruct (valid_cases p Hp) as [(x1 & y1 & Ep & N1 & D)|(x1 & y1 & z1 & N1 & Ep & D & O1)].
  { unfold add44. rewrite (proj2 (isz4_den p) D). auto. }
  destruct (valid_cases q Hq) as [(x2 & y2 & Eq & N2 & D2)|(x2 & y2 & z2 & N2 & Eq & D2 & O2)].
  { unfold add44. destruct (isz4 K p) eqn:Z; [auto|]. rewrite (proj2 (isz4_den q) D2). auto. }
  subst p q. rewrite add_rep by auto. cbv zeta. destruct (reqb x1 x2) eqn:Ex.
  - apply req_true in Ex. subst x2. destruct (reqb y1 y2) eqn:Ey; [apply dbl4_valid; auto|].
    apply req_false in Ey. apply valid_inf. intros [E _]. revert E. repeat apply mul_nz; auto; apply sub_nz; auto.
  - apply req_false in Ex. pose proof (chord_on x1 y1 x2 y2 Ex O1 O2) as O3.
    destruct (third_shape ((y2 - y1) / (x2 - x1)) x1 y1 x2) as (x3 & y3 & E3). rewrite E3 in *.
    apply valid_rep; auto. repeat apply mul_nz; auto; apply sub_nz; auto.
Qed.

(** ** affine operands *)
Lemma den_toP q : den4 (toP K q) = den2 q.
Proof.
  unfold toP, den2, isz2, is0. destruct (reqb (ax K q) 0 && reqb (ay K q) 0); unfold den4; cbn; [rewrite reqb_refl; reflexivity|].
  destruct (reqb 1 0) eqn:E; [apply req_true in E; destruct (proj1 HF E)|]. f_equal; field; apply HF.
Qed.
Lemma valid_toP q : valid2 q -> valid4 (toP K q).
Proof.
  intros H. unfold valid2 in H. rewrite <- den_toP in H. split; [|split; [|exact H]]; unfold toP; destruct (isz2 K q); cbn.
  - intros _. split; [reflexivity|]. intros [E _]. apply (proj1 HF E).
  - intros E. destruct (proj1 HF E).
  - congruence.
  - intros _. ring.
Qed.
Lemma wvalid_toP q : valid2 q -> wvalid4 (toP K q). Proof. intros H. apply valid_w, valid_toP, H. Qed.
Lemma toP_shape q : isz2 K q = false -> toP K q = rep (ax K q) (ay K q) 1.
Proof. intros H. unfold toP, rep. rewrite H. f_equal; ring. Qed.
Lemma dbl2_eq4 q : dbl2 K a q = dbl4 K a (toP K q).
Proof.
  unfold dbl2, dbl4. destruct (isz2 K q) eqn:E.
  - unfold toP. rewrite E. unfold isz4, p_inf. cbn. unfold is0. rewrite reqb_refl. reflexivity.
  - unfold toP. rewrite E. unfold isz4, is0. cbn [px py pzz pzzz]. destruct (reqb 1 0) eqn:E1; [apply req_true in E1; destruct (proj1 HF E1)|].
    cbv zeta. f_equal; ring.
Qed.
Lemma add42_eq4 p q : add42 K a p q = add44 K a p (toP K q) \/
  (isz4 K p = false /\ isz2 K q = false /\ is0 K (ax K q * pzz K p - px K p) && is0 K (ay K q * pzzz K p - py K p) = true /\ add42 K a p q = dbl4 K a (toP K q)).
Proof.
  unfold add42, add44. destruct (isz4 K p) eqn:Zp; [left; reflexivity|].
  destruct (isz2 K q) eqn:Zq.
  - left. unfold toP. rewrite Zq. unfold isz4, p_inf, is0. cbn. rewrite reqb_refl. reflexivity.
  - cbv zeta. destruct (is0 K (ax K q * pzz K p - px K p) && is0 K (ay K q * pzzz K p - py K p)) eqn:E.
    + right. rewrite dbl2_eq4. auto.
    + left. unfold toP. rewrite Zq. unfold isz4, is0. cbn [px py pzz pzzz]. destruct (reqb 1 0) eqn:E1; [apply req_true in E1; destruct (proj1 HF E1)|].
      replace (px K p * 1) with (px K p) by ring. replace (py K p * 1) with (py K p) by ring. unfold is0 in E. rewrite E. f_equal; ring.
Qed.
Lemma same_den p q : wvalid4 p -> isz4 K p = false -> isz2 K q = false ->
  is0 K (ax K q * pzz K p - px K p) && is0 K (ay K q * pzzz K p - py K p) = true -> den4 p = den2 q.
Proof.
  intros Hp Zp Zq E. apply andb_true_iff in E as [E1 E2]. unfold is0 in *. apply req_true in E1, E2. apply (proj1 (sub_0 _ _)) in E1. apply (proj1 (sub_0 _ _)) in E2.
  destruct (wvalid_cases p Hp) as [[_ D]|(x & y & z & Nz & Ep & D & O)]; [apply isz4_den in D; congruence|].
  rewrite D. unfold den2. unfold isz2, is0 in Zq. rewrite Zq. subst p. cbn in E1, E2.
  f_equal; [apply (fld_cancel K HF (z * z))|apply (fld_cancel K HF (z * z * z))]; try (repeat apply mul_nz; auto; fail).
  - transitivity (x * (z * z)); [ring|rewrite <- E1; ring].
  - transitivity (y * (z * z * z)); [ring|rewrite <- E2; ring].
Qed.
Lemma add42_den p q : wvalid4 p -> valid2 q -> den4 (add42 K a p q) = gplus (den4 p) (den2 q) /\ wvalid4 (add42 K a p q).
Proof.
  intros Hp Hq. rewrite <- (den_toP q). pose proof (wvalid_toP q Hq) as Hq'. destruct (add42_eq4 p q) as [E|(Zp & Zq & E & ->)].
  - rewrite E. apply add44_den; auto.
  - pose proof (same_den p q Hp Zp Zq E) as S. rewrite S, <- (den_toP q). apply dbl4_den, Hq'.
Qed.
Lemma add42_valid p q : 1 + 1 <> 0 -> disc <> 0 -> valid4 p -> valid2 q -> valid4 (add42 K a p q).
Proof.
  intros N2 ND Hp Hq. pose proof (valid_toP q Hq) as Hq'. destruct (add42_eq4 p q) as [->|(_ & _ & _ & ->)]; [apply add44_valid|apply dbl4_valid]; auto.
Qed.
Lemma add22_eq4 p q : add22 K a p q = add44 K a (toP K p) (toP K q).
Proof.
  unfold add22, add44. destruct (isz2 K p) eqn:Zp.
  { replace (isz4 K (toP K p)) with true; [reflexivity|]. unfold toP. rewrite Zp. unfold isz4, is0. cbn. rewrite reqb_refl. reflexivity. }
  assert (NZ : forall q, isz2 K q = false -> isz4 K (toP K q) = false).
  { intros q' Z. rewrite toP_shape by auto. apply isz4_rep, HF. }
  rewrite (NZ p Zp). destruct (isz2 K q) eqn:Zq.
  { replace (isz4 K (toP K q)) with true; [reflexivity|]. unfold toP. rewrite Zq. unfold isz4, is0. cbn. rewrite reqb_refl. reflexivity. }
  rewrite (NZ q Zq). set (D := dbl4 K a _). assert (ED : D = dbl4 K a (toP K p)) by reflexivity. clearbody D. unfold toP. rewrite Zp, Zq. cbn [px py pzz pzzz]. cbv zeta.
  replace (ax K q * 1 - ax K p * 1) with (ax K q - ax K p) by ring. replace (ay K q * 1 - ay K p * 1) with (ay K q - ay K p) by ring.
  destruct (is0 K (ax K q - ax K p) && is0 K (ay K q - ay K p)) eqn:E.
  - apply andb_true_iff in E as [E1 E2]. unfold is0 in *. apply req_true in E1, E2. apply (proj1 (sub_0 _ _)) in E1. apply (proj1 (sub_0 _ _)) in E2.
    rewrite ED, dbl2_eq4. f_equal. f_equal. destruct p, q. cbn in *. congruence.
  - f_equal; ring.
Qed.
Lemma add22_den p q : valid2 p -> valid2 q -> den4 (add22 K a p q) = gplus (den2 p) (den2 q) /\ wvalid4 (add22 K a p q).
Proof. intros Hp Hq. rewrite add22_eq4, <- !den_toP. apply add44_den; apply wvalid_toP; auto. Qed.
Lemma add22_valid p q : 1 + 1 <> 0 -> disc <> 0 -> valid2 p -> valid2 q -> valid4 (add22 K a p q).
Proof. intros N2 ND Hp Hq. rewrite add22_eq4. apply add44_valid; auto; apply valid_toP; auto. Qed.
Lemma dbl2_den p : valid2 p -> den4 (dbl2 K a p) = gplus (den2 p) (den2 p) /\ wvalid4 (dbl2 K a p).
Proof. intros Hp. rewrite dbl2_eq4, <- den_toP. apply dbl4_den, wvalid_toP, Hp. Qed.
Lemma dbl2_valid p : 1 + 1 <> 0 -> disc <> 0 -> valid2 p -> valid4 (dbl2 K a p).
Proof. intros N2 ND Hp. rewrite dbl2_eq4. apply dbl4_valid; auto. apply valid_toP, Hp. Qed.

(** ** negation and conversion to affine *)
Lemma neg4_den p : wvalid4 p -> den4 (neg4 K p) = gopp (den4 p) /\ wvalid4 (neg4 K p).
Proof.
  intros Hp. assert (E : den4 (neg4 K p) = gopp (den4 p)).
  { unfold den4, neg4, gopp, rdiv. cbn [px py pzz pzzz]. destruct (reqb (pzz K p) 0); [reflexivity|]. f_equal. ring. }
  split; [exact E|]. destruct Hp as [H1 H2]. split; [exact H1|]. rewrite E. apply gopp_on, H2.
Qed.
Lemma neg4_valid p : valid4 p -> valid4 (neg4 K p).
Proof.
  intros [H0 H]. split; [|apply neg4_den, H]. intros E. destruct (H0 E) as [A B]. split; [exact A|]. cbn. intros [X Y]. apply B. split; [exact X|].
  transitivity (- (- py K p)); [ring|rewrite Y; ring].
Qed.
Lemma neg2_den p : den2 (neg2 K p) = gopp (den2 p).
Proof.
  unfold den2, neg2. cbn [ax ay]. assert (E : reqb (- ay K p) 0 = reqb (ay K p) 0).
  { destruct (reqb (ay K p) 0) eqn:E; [apply req_true in E; rewrite E; apply reqb_ok; ring|]. apply req_false in E.
    destruct (reqb (- ay K p) 0) eqn:E2; [|reflexivity]. apply req_true in E2. exfalso. apply E. transitivity (- - ay K p); [ring|rewrite E2; ring]. }
  rewrite E. destruct (reqb (ax K p) 0 && reqb (ay K p) 0); reflexivity.
Qed.
Lemma neg2_valid p : valid2 p -> valid2 (neg2 K p).
Proof. unfold valid2. rewrite neg2_den. apply gopp_on. Qed.
Lemma den2_aff x y : b <> 0 -> on_curve (Aff x y) -> den2 (A2 K x y) = Aff x y.
Proof.
  intros Nb H. unfold den2. cbn [ax ay]. destruct (reqb x 0 && reqb y 0) eqn:E; [|reflexivity]. apply andb_true_iff in E as [E1 E2]. apply req_true in E1, E2.
  subst. exfalso. apply Nb. cbn in H. transitivity (0 * 0 * 0 + a * 0 + b); [ring|rewrite <- H; ring].
Qed.
Lemma toA_den p : b <> 0 -> wvalid4 p -> den2 (toA K p) = den4 p.
Proof.
  intros Nb [_ H]. unfold toA. destruct (isz4 K p) eqn:Z.
  - apply isz4_den in Z. rewrite Z. unfold den2, a_inf. cbn. rewrite reqb_refl. reflexivity.
  - unfold den4 in *. unfold isz4, is0 in Z. rewrite Z in *. apply den2_aff; auto.
Qed.
Lemma toA_valid p : b <> 0 -> wvalid4 p -> valid2 (toA K p).
Proof. intros Nb H. unfold valid2. rewrite toA_den by auto. apply H. Qed.

(** ** equality *)
Lemma eq44_den p q : valid4 p -> valid4 q -> (eq44 K p q = true <-> den4 p = den4 q).
Proof.
  intros Hp Hq. unfold eq44. destruct (valid_cases p Hp) as [(x1 & y1 & Ep & N1 & D)|(x1 & y1 & z1 & N1 & Ep & D & O1)].
  { rewrite (proj2 (isz4_den p) D), D, isz4_den. split; auto. }
  destruct (isz4 K p) eqn:Zp; [apply isz4_den in Zp; congruence|]. subst p. unfold is0. rewrite andb_true_iff, !reqb_ok, !sub_0.
  destruct (valid_cases q Hq) as [(x2 & y2 & Eq & N2 & D2)|(x2 & y2 & z2 & N2 & Eq & D2 & O2)]; subst q; cbn [px py pzz pzzz rep].
  - rewrite D, D2. split; [|discriminate]. intros [A B]. exfalso. apply N2. split.
    + apply (fld_cancel K HF (z1 * z1)); [apply mul_nz; auto|]. transitivity (x2 * (z1 * z1)); [ring|rewrite A; ring].
    + apply (fld_cancel K HF (z1 * z1 * z1)); [repeat apply mul_nz; auto|]. transitivity (y2 * (z1 * z1 * z1)); [ring|rewrite B; ring].
  - rewrite D, D2. split.
    + intros [A B]. f_equal.
      * apply (fld_cancel K HF (z1 * z1 * (z2 * z2))); [repeat apply mul_nz; auto|]. transitivity (x1 * (z1 * z1) * (z2 * z2)); [ring|rewrite <- A; ring].
      * apply (fld_cancel K HF (z1 * z1 * z1 * (z2 * z2 * z2))); [repeat apply mul_nz; auto|]. transitivity (y1 * (z1 * z1 * z1) * (z2 * z2 * z2)); [ring|rewrite <- B; ring].
    + intros [= <- <-]. split; ring.
Qed.
Lemma eq42_den p q : b <> 0 -> wvalid4 p -> (eq42 K p q = true <-> den4 p = den2 q).
Proof.
  intros Nb Hp. unfold eq42. destruct (wvalid_cases p Hp) as [[_ D]|(x1 & y1 & z1 & N1 & Ep & D & O1)].
  { rewrite (proj2 (isz4_den p) D), D, isz2_den. split; auto. }
  destruct (isz4 K p) eqn:Zp; [apply isz4_den in Zp; congruence|]. subst p. unfold is0. rewrite andb_true_iff, !reqb_ok, !sub_0.
  cbn [px py pzz pzzz rep]. rewrite D.
  assert (EQ : ax K q * (z1 * z1) = x1 * (z1 * z1) /\ ay K q * (z1 * z1 * z1) = y1 * (z1 * z1 * z1) <-> (x1 = ax K q /\ y1 = ay K q)).
  { split; [|intros [-> ->]; split; reflexivity]. intros [A B]. split.
    - apply (fld_cancel K HF (z1 * z1)); [apply mul_nz; auto|]. transitivity (x1 * (z1 * z1)); [ring|rewrite <- A; ring].
    - apply (fld_cancel K HF (z1 * z1 * z1)); [repeat apply mul_nz; auto|]. transitivity (y1 * (z1 * z1 * z1)); [ring|rewrite <- B; ring]. }
  rewrite EQ. split.
  - intros [-> ->]. symmetry. destruct q. apply den2_aff; auto.
  - unfold den2. destruct (reqb (ax K q) 0 && reqb (ay K q) 0); [discriminate|]. intros [= -> ->]. auto.
Qed.
Lemma eq22_den p q : (eq22 K p q = true <-> den2 p = den2 q).
Proof.
  unfold eq22. rewrite andb_true_iff, !reqb_ok. split; [intros [A B]; unfold den2; rewrite A, B; reflexivity|].
  unfold den2. destruct (reqb (ax K p) 0 && reqb (ay K p) 0) eqn:E1; destruct (reqb (ax K q) 0 && reqb (ay K q) 0) eqn:E2; try discriminate.
  - intros _. apply andb_true_iff in E1 as [A B], E2 as [A' B']. apply req_true in A, B, A', B'. split; congruence.
  - intros [= -> ->]. auto.
Qed.
(** ** the law is commutative *)
Lemma gplus_comm P Q : on_curve P -> on_curve Q -> gplus P Q = gplus Q P.
Proof.
  destruct P as [|x1 y1], Q as [|x2 y2]; try reflexivity. intros O1 O2. cbn [gplus].
  destruct (reqb x1 x2) eqn:E.
  - apply req_true in E. subst x2. rewrite reqb_refl. destruct (rdec K y1 y2) as [->|N]; [reflexivity|].
    pose proof (gplus_eqx x1 y1 y2 O1 O2 N) as A. pose proof (gplus_eqx x1 y2 y1 O2 O1 (not_eq_sym N)) as B.
    cbn [gplus] in A, B. rewrite reqb_refl in A, B. congruence.
  - apply req_false in E. destruct (reqb x2 x1) eqn:E2; [apply req_true in E2; congruence|].
    unfold third. cbv zeta. apply not_eq_sym in E. pose proof (sub_nz _ _ E). pose proof (sub_nz _ _ (not_eq_sym E)). f_equal; field; auto.
Qed.
Lemma opp_opp (y : K) : - - y = y.
Proof. ring. Qed.
End Law.
