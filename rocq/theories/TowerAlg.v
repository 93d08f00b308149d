(** Specification of the extension rings: polynomials modulo u^2 - nr,
    t^3 - xi, w^2 - t, with their usual product; when they are fields. *)
From Coq Require Import ZArith List Bool Ring Setoid.
From Verif Require Import Tower.
Import ListNotations.

Lemma pair_eq (A B : Type) (a c : A) (b d : B) : a = c -> b = d -> (a, b) = (c, d).
Proof. intros -> ->. reflexivity. Qed.

Section RingFacts.
Variable K : rng.
Add Ring Kring : (r_th K).
Notation "0" := (@r0 K). Notation "1" := (@r1 K).
Infix "+" := (@radd K). Infix "*" := (@rmul K). Infix "-" := (@rsub K). Notation "- x" := (@ropp K x).

Lemma mul_0_r (x : K) : x * 0 = 0. Proof. ring. Qed.
Lemma reqb_refl (x : K) : reqb x x = true. Proof. apply reqb_ok. reflexivity. Qed.
Lemma rdec (x y : K) : {x = y} + {x <> y}.
Proof. destruct (reqb x y) eqn:E; [left; apply reqb_ok, E|right; intros H; apply reqb_ok in H; congruence]. Qed.
Lemma fld_integral : is_field K -> forall x y : K, x * y = 0 -> x = 0 \/ y = 0.
Proof.
  intros [_ HI] x y H. destruct (rdec x 0) as [|N]; [left; auto|right].
  transitivity (rinv x * (x * y)); [|rewrite H; ring].
  transitivity (x * rinv x * y); [rewrite (HI x N); ring|ring].
Qed.
Lemma fld_cancel : is_field K -> forall x y z : K, x <> 0 -> x * y = x * z -> y = z.
Proof.
  intros HF x y z N H. assert (E : x * (y - z) = 0) by (transitivity (x * y - x * z); [ring|rewrite H; ring]).
  apply fld_integral in E; [|auto]. destruct E as [E|E]; [contradiction|].
  transitivity (y - z + z); [ring|rewrite E; ring].
Qed.
Lemma fld_inv_unique : is_field K -> forall x y : K, x * y = 1 -> y = rinv x.
Proof.
  intros HF x y H. assert (N : x <> 0). { intros ->. apply (proj1 HF). rewrite <- H. ring. }
  apply (fld_cancel HF x); [auto|]. rewrite (proj2 HF x N). exact H.
Qed.
Fixpoint rpow (x : K) (n : nat) : K := match n with O => 1 | S n => x * rpow x n end.
Definition square_in (x : K) : Prop := exists y : K, y * y = x.
Definition cube_in (x : K) : Prop := exists y : K, y * y * y = x.
End RingFacts.
Arguments rpow {K}. Arguments square_in {K}. Arguments cube_in {K}.

(** ** K[u]/(u^2 - nr) *)
Section Quad.
Variable K : rng.
Variable nr : K.
Add Ring Kring2 : (r_th K).
Notation "0" := (@r0 K). Notation "1" := (@r1 K).
Infix "+" := (@radd K). Infix "*" := (@rmul K). Infix "-" := (@rsub K). Notation "- x" := (@ropp K x).
Definition q_add (x y : K * K) : K * K := (fst x + fst y, snd x + snd y).
Definition q_sub (x y : K * K) : K * K := (fst x - fst y, snd x - snd y).
Definition q_opp (x : K * K) : K * K := (- fst x, - snd x).
(** (a + b u)(c + d u) = (a c + nr b d) + (a d + b c) u *)
Definition q_mul (x y : K * K) : K * K := (fst x * fst y + nr * (snd x * snd y), fst x * snd y + snd x * fst y).
Definition q_norm (x : K * K) : K := fst x * fst x - nr * (snd x * snd x).
Definition q_inv (x : K * K) : K * K := (fst x * rinv (q_norm x), - (snd x * rinv (q_norm x))).
Definition q_eqb (x y : K * K) : bool := reqb (fst x) (fst y) && reqb (snd x) (snd y).
Lemma q_th : ring_theory (0, 0) (1, 0) q_add q_mul q_sub q_opp eq.
Proof.
  split; intros; repeat match goal with x : prod _ _ |- _ => destruct x end;
    unfold q_add, q_mul, q_sub, q_opp; cbn [fst snd]; apply pair_eq; ring.
Qed.
Lemma q_eqb_ok x y : q_eqb x y = true <-> x = y.
Proof.
  destruct x as [a b], y as [c d]. unfold q_eqb. cbn [fst snd]. rewrite andb_true_iff, !reqb_ok.
  split; [intros [-> ->]; reflexivity|]. intros H. split; congruence.
Qed.
Definition quad : rng := {| rcar := K * K; r0 := (0, 0); r1 := (1, 0); radd := q_add; rmul := q_mul; rsub := q_sub; ropp := q_opp;
  rinv := q_inv; reqb := q_eqb; r_th := q_th; reqb_ok := q_eqb_ok |}.
(** u is a root of u^2 = nr, and K embeds *)
Lemma q_u : @rmul quad (0, 1) (0, 1) = (nr, 0). Proof. cbn. unfold q_mul. cbn. f_equal; ring. Qed.

Lemma q_norm_mul x y : q_norm (q_mul x y) = q_norm x * q_norm y.
Proof. destruct x, y. unfold q_norm, q_mul. cbn [fst snd]. ring. Qed.
Lemma q_norm_0 : is_field K -> ~ square_in nr -> forall x, q_norm x = 0 -> x = (0, 0).
Proof.
  intros HF NS [a b] H. unfold q_norm in H. cbn [fst snd] in H.
  assert (E : a * a = nr * (b * b)) by (transitivity (a * a - nr * (b * b) + nr * (b * b)); [ring|rewrite H; ring]).
  destruct (rdec K b 0) as [->|Nb].
  - assert (Ea : a * a = 0) by (rewrite E; ring). apply fld_integral in Ea; [|auto]. destruct Ea; subst; reflexivity.
  - exfalso. apply NS. exists (a * rinv b). pose proof (proj2 HF b Nb) as I.
    transitivity ((a * a) * (rinv b * rinv b)); [ring|]. rewrite E.
    transitivity (nr * ((b * rinv b) * (b * rinv b))); [ring|]. rewrite I. ring.
Qed.
Theorem quad_field : is_field K -> ~ square_in nr -> is_field quad.
Proof.
  intros HF NS. split.
  - intros H. apply (proj1 HF). cbn in H. congruence.
  - intros x Nx. cbn. assert (N : q_norm x <> 0) by (intros H; apply Nx, (q_norm_0 HF NS x H)).
    pose proof (proj2 HF _ N) as I. destruct x as [a b]. unfold q_mul, q_inv. cbn [fst snd].
    set (d := rinv (q_norm (a, b))) in *. f_equal; [|ring].
    rewrite <- I. unfold q_norm. cbn [fst snd]. ring.
Qed.
End Quad.

(** ** K[t]/(t^3 - xi); (x, y, z) = x t^2 + y t + z *)
Section Cubic.
Variable K : rng.
Variable xi : K.
Add Ring Kring3 : (r_th K).
Notation "0" := (@r0 K). Notation "1" := (@r1 K).
Infix "+" := (@radd K). Infix "*" := (@rmul K). Infix "-" := (@rsub K). Notation "- x" := (@ropp K x).
Definition K3 : Type := K * K * K.
Definition cx (e : K3) := fst (fst e). Definition cy (e : K3) := snd (fst e). Definition cz (e : K3) := snd e.
Definition c_add (a b : K3) : K3 := (cx a + cx b, cy a + cy b, cz a + cz b).
Definition c_sub (a b : K3) : K3 := (cx a - cx b, cy a - cy b, cz a - cz b).
Definition c_opp (a : K3) : K3 := (- cx a, - cy a, - cz a).
Definition c_mul (a b : K3) : K3 :=
  (cx a * cz b + cy a * cy b + cz a * cx b,
   cy a * cz b + cz a * cy b + xi * (cx a * cx b),
   cz a * cz b + xi * (cx a * cy b + cy a * cx b)).
Definition c_A (a : K3) := cz a * cz a - xi * (cx a * cy a).
Definition c_B (a : K3) := xi * (cx a * cx a) - cy a * cz a.
Definition c_C (a : K3) := cy a * cy a - cx a * cz a.
Definition c_norm (a : K3) : K := cz a * cz a * cz a + xi * (cy a * cy a * cy a) + xi * xi * (cx a * cx a * cx a)
  - xi * (cx a * cy a * cz a) - xi * (cx a * cy a * cz a) - xi * (cx a * cy a * cz a).
Definition c_inv (a : K3) : K3 := let d := rinv (c_norm a) in (c_C a * d, c_B a * d, c_A a * d).
Definition c_eqb (a b : K3) : bool := reqb (cx a) (cx b) && reqb (cy a) (cy b) && reqb (cz a) (cz b).
Ltac open3 := repeat match goal with x : K3 |- _ => destruct x as [[? ?] ?] | x : prod (prod _ _) _ |- _ => destruct x as [[? ?] ?] end;
  unfold c_add, c_mul, c_sub, c_opp, c_norm, c_A, c_B, c_C, cx, cy, cz; cbn [fst snd].
Lemma c_th : ring_theory (0, 0, 0) (0, 0, 1) c_add c_mul c_sub c_opp eq.
Proof. split; intros; open3; (apply pair_eq; [apply pair_eq|]; ring). Qed.
Lemma c_eqb_ok x y : c_eqb x y = true <-> x = y.
Proof.
  destruct x as [[a b] c], y as [[a' b'] c']. unfold c_eqb, cx, cy, cz. cbn [fst snd]. rewrite !andb_true_iff, !reqb_ok.
  split; [intros [[-> ->] ->]; reflexivity|]. intros H. repeat split; congruence.
Qed.
Definition cubic : rng := {| rcar := K3; r0 := (0, 0, 0); r1 := (0, 0, 1); radd := c_add; rmul := c_mul; rsub := c_sub; ropp := c_opp;
  rinv := c_inv; reqb := c_eqb; r_th := c_th; reqb_ok := c_eqb_ok |}.
Definition c_t : cubic := (0, 1, 0).
Lemma c_t3 : @rmul cubic c_t (rmul c_t c_t) = (0, 0, xi).
Proof. cbn. unfold c_t. open3. apply pair_eq; [apply pair_eq|]; ring. Qed.
Lemma c_norm_mul x y : c_norm (c_mul x y) = c_norm x * c_norm y.
Proof. open3. ring. Qed.
Lemma c_adj a : c_mul a (c_C a, c_B a, c_A a) = (0, 0, c_norm a).
Proof. open3. apply pair_eq; [apply pair_eq|]; ring. Qed.
(** the norm of a linear polynomial *)
Lemma c_norm_lin : is_field K -> ~ cube_in xi -> forall y z, c_norm (0, y, z) = 0 -> y = 0 /\ z = 0.
Proof.
  intros HF NC y z H.
  assert (E : z * z * z + xi * (y * y * y) = 0).
  { rewrite <- H. open3. ring. }
  destruct (rdec K y 0) as [->|Ny].
  - split; [reflexivity|]. assert (Ez : z * (z * z) = 0) by (rewrite <- E; ring).
    apply fld_integral in Ez; [|auto]. destruct Ez as [|Ez]; [auto|]. apply fld_integral in Ez; [|auto]. tauto.
  - exfalso. apply NC. exists (- (z * rinv y)). pose proof (proj2 HF y Ny) as I.
    transitivity (- (z * z * z) * (rinv y * rinv y * rinv y)); [ring|].
    transitivity ((xi * (y * y * y) - (z * z * z + xi * (y * y * y))) * (rinv y * rinv y * rinv y)); [ring|].
    rewrite E. transitivity (xi * ((y * rinv y) * (y * rinv y) * (y * rinv y))); [ring|]. rewrite I. ring.
Qed.
Lemma c_norm_0 : is_field K -> ~ cube_in xi -> forall a, c_norm a = 0 -> a = (0, 0, 0).
Proof.
  intros HF NC [[x y] z] H. destruct (rdec K x 0) as [->|Nx].
  - destruct (c_norm_lin HF NC y z H) as [-> ->]. reflexivity.
  - exfalso.
    (* remainder of x^2 (t^3 - xi) by x t^2 + y t + z, up to sign: c t + d *)
    set (c := y * y - x * z). set (d := y * z - x * x * xi).
    assert (M : c_mul (x, y, z) (0, x, - y) = (0, - c, - d)).
    { unfold c, d. open3. apply pair_eq; [apply pair_eq|]; ring. }
    assert (N0 : c_norm (0, - c, - d) = 0). { rewrite <- M, c_norm_mul, H. ring. }
    destruct (c_norm_lin HF NC _ _ N0) as [E1 E2].
    assert (Ec : y * y = x * z) by (transitivity (- - c + x * z); [unfold c; ring|rewrite E1; ring]).
    assert (Ed : y * z = x * x * xi) by (transitivity (- - d + x * x * xi); [unfold d; ring|rewrite E2; ring]).
    apply NC. exists (y * rinv x). pose proof (proj2 HF x Nx) as I.
    transitivity (y * (y * y) * (rinv x * rinv x * rinv x)); [ring|]. rewrite Ec.
    transitivity ((y * z) * (x * rinv x) * (rinv x * rinv x)); [ring|]. rewrite I, Ed.
    transitivity (xi * ((x * rinv x) * (x * rinv x))); [ring|]. rewrite I. ring.
Qed.
Theorem cubic_field : is_field K -> ~ cube_in xi -> is_field cubic.
Proof.
  intros HF NC. split.
  - intros H. apply (proj1 HF). cbn in H. congruence.
  - intros x Nx. cbn. assert (N : c_norm x <> 0) by (intros H; apply Nx, (c_norm_0 HF NC x H)).
    pose proof (proj2 HF _ N) as I. unfold c_inv. set (d := rinv (c_norm x)) in *.
    transitivity (c_mul (c_mul x (c_C x, c_B x, c_A x)) (0, 0, d)).
    { generalize (c_C x) (c_B x) (c_A x) d. intros. open3. apply pair_eq; [apply pair_eq|]; ring. }
    rewrite c_adj. clearbody d. revert I. generalize (c_norm x). intros k I. unfold c_mul, cx, cy, cz. cbn [fst snd].
    apply pair_eq; [apply pair_eq; ring|]. rewrite I. ring.
Qed.
(** a square root of t would give a square root of xi *)
Lemma t_square : square_in (c_t : cubic) -> square_in xi.
Proof.
  intros [s E]. exists (c_norm s). change (c_norm s * c_norm s = xi). rewrite <- c_norm_mul.
  change (c_mul s s) with (@rmul cubic s s). rewrite E. unfold c_t. open3. ring.
Qed.
End Cubic.

(** ** The tower of alt_bn128: u^2 = -1, xi = 9 + u, t^3 = xi, w^2 = t *)
Section TheTower.
Variable K : rng.
Add Ring Kring4 : (r_th K).
Notation "0" := (@r0 K). Notation "1" := (@r1 K).
Infix "+" := (@radd K). Infix "*" := (@rmul K). Infix "-" := (@rsub K). Notation "- x" := (@ropp K x).
Definition nine : K := 1 + 1 + 1 + 1 + 1 + 1 + 1 + 1 + 1.
Definition E2 : rng := quad K (neg1 K).
Definition xi : E2 := (nine, 1).
Definition E6 : rng := cubic E2 xi.
Definition E12 : rng := quad E6 (c_t E2 xi).
Lemma xi_square : square_in xi -> square_in (nine * nine + 1).
Proof.
  intros [s E]. exists (q_norm K (neg1 K) s). rewrite <- q_norm_mul. change (q_mul K (neg1 K) s s) with (@rmul E2 s s). rewrite E.
  unfold xi, q_norm, neg1. cbn [fst snd]. ring.
Qed.
Lemma xi_cube : cube_in xi -> cube_in (nine * nine + 1).
Proof.
  intros [s E]. exists (q_norm K (neg1 K) s). rewrite <- !q_norm_mul. change (q_mul K (neg1 K) (q_mul K (neg1 K) s s) s) with (@rmul E2 (rmul s s) s). rewrite E.
  unfold xi, q_norm, neg1. cbn [fst snd]. ring.
Qed.
(** Sufficient conditions in the base field for the whole tower to consist of fields. *)
Theorem tower_fields : is_field K -> ~ square_in (- (1)) -> ~ square_in (nine * nine + 1) -> ~ cube_in (nine * nine + 1) ->
  is_field E2 /\ is_field E6 /\ is_field E12.
Proof.
  intros HF N1 N2 N3. assert (H2 : is_field E2) by (apply quad_field; auto).
  assert (H6 : is_field E6) by (apply cubic_field; [auto|]; intros H; apply N3, xi_cube, H).
  split; [auto|]. split; [auto|]. apply quad_field; [auto|]. intros H. apply N2, xi_square, (t_square E2 xi), H.
Qed.
End TheTower.
