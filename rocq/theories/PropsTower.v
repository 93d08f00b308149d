(** Properties C32-C34: the extension fields F2Field, F6Field, F12Field. *)
From Coq Require Import ZArith List Bool Lia.
From Verif Require Import Bytes Tower TowerAlg TowerFacts TowerFacts2 TowerFacts3 Zp.
Import ListNotations.

(** [val2 m p] is the pair of cells of the F2 element at p.  [quad K nr] is the
    ring K[u]/(u^2 - nr) with the schoolbook product.  r, a, b are any locations
    (so any of them may be the same); [frame2 r m m'] : no cell outside r and
    outside the function's own locals changed. *)
Theorem C32_linear : forall (K : rng) (nr : K) r a b (m : mem K), let Q := quad K nr in
  (val2 (F2_add K r a b m) r = @radd Q (val2 m a) (val2 m b) /\ frame2 r m (F2_add K r a b m)) /\
  (val2 (F2_sub K r a b m) r = @rsub Q (val2 m a) (val2 m b) /\ frame2 r m (F2_sub K r a b m)) /\
  (val2 (F2_neg K r a m) r = @ropp Q (val2 m a) /\ frame2 r m (F2_neg K r a m)) /\
  (val2 (F2_conjugate K r a m) r = (fst (val2 m a), ropp (snd (val2 m a))) /\ frame2 r m (F2_conjugate K r a m)) /\
  (val2 (F2_copy K r a m) r = val2 m a /\ frame2 r m (F2_copy K r a m)).
Proof.
  intros K nr r a b m. cbv zeta. rewrite add2_eq, sub2_eq, neg2_eq, conj2_eq, copy2_eq, !leqb_refl.
  repeat split; first [apply add2_frame|apply sub2_frame|apply neg2_frame|apply conj2_frame|apply copy2_frame].
Qed.
Print Assumptions C32_linear.

Theorem C32_mul : forall (K : rng) (nr : K) r a b (m : mem K),
  val2 (F2_mul K nr r a b m) r = @rmul (quad K nr) (val2 m a) (val2 m b) /\ frame2 r m (F2_mul K nr r a b m).
Proof. intros. rewrite mul2_eq, leqb_refl. split; [reflexivity|apply mul2_frame]. Qed.
Print Assumptions C32_mul.

Theorem C32_inv : forall (K : rng) (nr : K) r a (m : mem K), is_field K -> ~ square_in nr -> val2 m a <> (r0, r0) ->
  @rmul (quad K nr) (val2 (F2_inv K nr r a m) r) (val2 m a) = (r1, r0) /\ frame2 r m (F2_inv K nr r a m).
Proof.
  intros K nr r a m HF NS Na. split; [|apply inv2_frame].
  apply (fld_inv_l (quad K nr)); [apply quad_field; auto|exact Na|]. rewrite inv2_eq, leqb_refl. reflexivity.
Qed.
Print Assumptions C32_inv.

Theorem C32_div : forall (K : rng) (nr : K) r a b (m : mem K), is_field K -> ~ square_in nr -> loc1 r = false -> loc1 a = false ->
  val2 m b <> (r0, r0) ->
  @rmul (quad K nr) (val2 (F2_div K nr r a b m) r) (val2 m b) = val2 m a /\ frame2 r m (F2_div K nr r a b m).
Proof.
  intros K nr r a b m HF NS Lr La Nb. split; [|apply div2_frame].
  apply (fld_div (quad K nr)); [apply quad_field; auto|exact Nb|].
  rewrite div2_eq, leqb_refl; [reflexivity|intros ->; discriminate|intros ->; discriminate].
Qed.
Print Assumptions C32_div.

(** multiplication by a base field cell b, which may be any cell (also one of
    the operand's, or the second of the destination's) but the first of r *)
Theorem C32_mulScalar_partial : forall (K : rng) (nr : K) r a b (m : mem K), b <> C 0 r ->
  val2 (F2_mulScalar K r a b m) r = @rmul (quad K nr) (val2 m a) (m b, r0) /\ frame2 r m (F2_mulScalar K r a b m).
Proof.
  intros K nr r a b m Hb. split; [|apply scale2_frame]. rewrite scale2_eq, leqb_refl by auto. unfold q_scale. cbn. unfold q_mul. cbn [fst snd].
  apply pair_eq; rewrite !(Rmul_comm (r_th K) _ r0), !(mul_0_l' K); symmetry; [rewrite (Rmul_comm (r_th K) nr), (mul_0_l' K), (Radd_comm (r_th K))|]; apply (Radd_0_l (r_th K)).
Qed.
Print Assumptions C32_mulScalar_partial.

(** mulXi multiplies by 9 + u, in K[u]/(u^2 + 1) *)
Theorem C32_mulXi : forall (K : rng) r a (m : mem K), loc1 r = false -> loc1 a = false ->
  val2 (F2_mulXi K r a m) r = @rmul (quad K (ropp r1)) (nine K, r1) (val2 m a) /\ frame2 r m (F2_mulXi K r a m).
Proof.
  intros K r a m Lr La. split; [|apply mulXi_frame]. rewrite mulXi_eq, leqb_refl; [reflexivity|intros ->; discriminate|intros ->; discriminate].
Qed.
Print Assumptions C32_mulXi.

(** Squaring: right for nr = -1, the only value the tower uses. *)
Theorem C32_square_partial : forall (K : rng) r a (m : mem K), (r1 : K) <> r0 -> (r1 : K) <> ropp r1 ->
  val2 (F2_square K (ropp r1) r a m) r = @rmul (quad K (ropp r1)) (val2 m a) (val2 m a) /\ frame2 r m (F2_square K (ropp r1) r a m).
Proof.
  intros K r a m H0 H1. split; [|apply square2_frame]. rewrite square2_eq, leqb_refl; [reflexivity|reflexivity|].
  apply negone_type; auto.
Qed.
Print Assumptions C32_square_partial.

(** A memory over Z/7 with different values in the cells. *)
Fixpoint cell_no (l : loc) : Z :=
  match l with R (User n) => 3 + 5 * Z.of_nat n | R _ => 4 | C i l => (Z.of_nat i + 2) * (cell_no l + 2) + Z.of_nat i * Z.of_nat i end%Z.
Definition m7 : mem F7 := fun l => f7 (cell_no l).
Definition u0 := R (User 0). Definition u1 := R (User 1).
Definition show2 (x : F7 * F7) : Z * Z := (zv (fst x), zv (snd x)).

(** For nr = 3, a non-residue modulo 7, squaring is wrong (f2field.cpp line 165
    adds the wrong temporary): the cells (3, 2) of u0 give (3 + 2u)^2 = 0 + 5 u,
    the function returns 1 + 5 u. *)
Theorem C32_square_refuted : exists (K : rng) (nr : K) r a (m : mem K), is_field K /\ ~ square_in nr /\
  val2 (F2_square K nr r a m) r <> @rmul (quad K nr) (val2 m a) (val2 m a).
Proof.
  exists F7, (f7 3), u1, u0, m7. split; [exact F7_field|]. split; [apply no_square; vm_compute; reflexivity|].
  intros H. apply (f_equal show2) in H. vm_compute in H. discriminate.
Qed.
Print Assumptions C32_square_refuted.
(** With b the first component of the destination, mulScalar is wrong. *)
Theorem C32_mulScalar_refuted : exists (K : rng) r a b (m : mem K), is_field K /\
  val2 (F2_mulScalar K r a b m) r <> (rmul (m (C 0 a)) (m b), rmul (m (C 1 a)) (m b)).
Proof.
  exists F7, u0, u1, (C 0 u0), m7. split; [exact F7_field|].
  intros H. apply (f_equal show2) in H. vm_compute in H. discriminate.
Qed.
Print Assumptions C32_mulScalar_refuted.
(** comparisons *)
Theorem C32_compare : forall (K : rng) a b (m : mem K),
  (F2_eq K a b m = true <-> val2 m a = val2 m b) /\ (F2_isZero K a m = true <-> val2 m a = (r0, r0)) /\ (F2_isOne K a m = true <-> val2 m a = (r1, r0)).
Proof. intros. split; [apply eq2_ok|]. split; [apply isZero2_ok|apply isOne2_ok]. Qed.
Print Assumptions C32_compare.

Example C32_ex_mul : show2 (val2 m7 u0) = (3, 2)%Z /\ show2 (val2 m7 u1) = (6, 3)%Z /\
  show2 (val2 (F2_mul F7 (f7 3) u0 u0 u1 m7) u0) = (1, 0)%Z /\ show2 (val2 (F2_mul F7 (f7 3) u0 u0 u0 m7) u0) = (0, 5)%Z.
Proof. vm_compute. repeat split. Qed.
Example C32_ex_inv : ~ square_in (f7 3) /\ val2 m7 u0 <> (r0, r0) /\ show2 (val2 (F2_inv F7 (f7 3) u0 u0 m7) u0) = (6, 3)%Z.
Proof.
  split; [apply no_square; vm_compute; reflexivity|]. split; [intros H; apply (f_equal show2) in H; vm_compute in H; discriminate|vm_compute; reflexivity].
Qed.
Example C32_ex_div : loc1 u0 = false /\ val2 m7 u0 <> (r0, r0) /\ show2 (val2 (F2_div F7 (f7 3) u0 u1 u0 m7) u0) = show2 (val2 (F2_mul F7 (f7 3) u1 u1 u0 (F2_inv F7 (f7 3) u0 u0 m7)) u1).
Proof. split; [reflexivity|]. split; [intros H; apply (f_equal show2) in H; vm_compute in H; discriminate|vm_compute; reflexivity]. Qed.
Example C32_ex_square : (r1 : F7) <> r0 /\ (r1 : F7) <> ropp r1 /\ show2 (val2 (F2_square F7 (ropp r1) u0 u0 m7) u0) = (5, 5)%Z.
Proof. split; [|split; [|vm_compute; reflexivity]]; intros H; apply (f_equal zv) in H; vm_compute in H; discriminate. Qed.
Example C32_ex_xi : loc1 u0 = false /\ show2 (val2 (F2_mulXi F7 u0 u0 m7) u0) = (4, 0)%Z.
Proof. split; vm_compute; reflexivity. Qed.
Example C32_ex_scalar : C 1 u0 <> C 0 u0 /\ show2 (val2 (F2_mulScalar F7 u0 u0 (C 1 u0) m7) u0) = (6, 4)%Z.
Proof. split; [discriminate|vm_compute; reflexivity]. Qed.

(** ** C33.  [E6 K] is E2[t]/(t^3 - (9 + u)) over E2 = K[u]/(u^2 + 1); the value
    of an F6 element is (x, y, z) = x t^2 + y t + z. *)
Theorem C33_linear : forall (K : rng) r a b (m : mem K),
  (val6 (F6_add K r a b m) r = @radd (E6 K) (val6 m a) (val6 m b) /\ frame6 K r m (F6_add K r a b m)) /\
  (val6 (F6_sub K r a b m) r = @rsub (E6 K) (val6 m a) (val6 m b) /\ frame6 K r m (F6_sub K r a b m)) /\
  (val6 (F6_neg K r a m) r = @ropp (E6 K) (val6 m a) /\ frame6 K r m (F6_neg K r a m)) /\
  (val6 (F6_copy K r a m) r = val6 m a /\ frame6 K r m (F6_copy K r a m)).
Proof.
  intros K r a b m. rewrite add6_eq, sub6_eq, neg6_eq, copy6_eq, !leqb_refl.
  split; [split; [reflexivity|apply add6_frame]|]. split; [split; [reflexivity|apply sub6_frame]|].
  split; [split; [reflexivity|apply neg6_frame]|]. split; [reflexivity|apply copy6_frame].
Qed.
Print Assumptions C33_linear.
Theorem C33_mul : forall (K : rng) r a b (m : mem K),
  val6 (F6_mul K r a b m) r = @rmul (E6 K) (val6 m a) (val6 m b) /\ frame6 K r m (F6_mul K r a b m).
Proof. intros. rewrite mul6_eq, leqb_refl. split; [reflexivity|apply mul6_frame]. Qed.
Print Assumptions C33_mul.
Theorem C33_square : forall (K : rng) r a (m : mem K), (r1 : K) <> r0 -> (r1 : K) <> ropp r1 ->
  val6 (F6_square K r a m) r = @rmul (E6 K) (val6 m a) (val6 m a) /\ frame6 K r m (F6_square K r a m).
Proof. intros K r a m H0 H1. rewrite square6_eq, leqb_refl by (apply negone_type; auto). split; [reflexivity|apply square6_frame]. Qed.
Print Assumptions C33_square.
(** mulTau multiplies by t = (0, 1, 0) *)
Theorem C33_mulTau : forall (K : rng) r a (m : mem K),
  val6 (F6_mulTau K r a m) r = @rmul (E6 K) (@r0 (E2 K), @r1 (E2 K), @r0 (E2 K)) (val6 m a) /\ frame6 K r m (F6_mulTau K r a m).
Proof. intros. rewrite mulTau_eq, leqb_refl. split; [reflexivity|apply mulTau_frame]. Qed.
Print Assumptions C33_mulTau.
Theorem C33_inv : forall (K : rng) r a (m : mem K), is_field K -> ~ square_in (ropp r1 : K) -> ~ cube_in (xi K) ->
  val6 m a <> @r0 (E6 K) ->
  @rmul (E6 K) (val6 (F6_inv K r a m) r) (val6 m a) = @r1 (E6 K) /\ frame6 K r m (F6_inv K r a m).
Proof.
  intros K r a m HF NS NC Na. split; [|apply inv6_frame]. apply (fld_inv_l (E6 K)); [apply cubic_field; [apply quad_field|]; auto|exact Na|].
  rewrite inv6_eq, leqb_refl by (apply nonsquare_negone; [apply HF|auto]). reflexivity.
Qed.
Print Assumptions C33_inv.
Theorem C33_div : forall (K : rng) r a b (m : mem K), is_field K -> ~ square_in (ropp r1 : K) -> ~ cube_in (xi K) ->
  loc2 r = false -> loc2 a = false -> val6 m b <> @r0 (E6 K) ->
  @rmul (E6 K) (val6 (F6_div K r a b m) r) (val6 m b) = val6 m a /\ frame6 K r m (F6_div K r a b m).
Proof.
  intros K r a b m HF NS NC Lr La Nb. split; [|apply div6_frame]. apply (fld_div (E6 K)); [apply cubic_field; [apply quad_field|]; auto|exact Nb|].
  rewrite div6_eq, leqb_refl; [reflexivity|apply nonsquare_negone; [apply HF|auto]|intros ->; discriminate|intros ->; discriminate].
Qed.
Print Assumptions C33_div.
(** multiplication by an F2 element (mulScalar) and by a base field cell (mulGFP) *)
Theorem C33_scalars : forall (K : rng) r a b c (m : mem K), b <> C 0 r -> b <> C 1 r -> inside r c = false -> loc1 c = false ->
  (val6 (F6_mulScalar K r a b m) r = @rmul (E6 K) (val6 m a) (@r0 (E2 K), @r0 (E2 K), (val2 m b : E2 K)) /\ frame6 K r m (F6_mulScalar K r a b m)) /\
  (val6 (F6_mulGFP K r a c m) r = @rmul (E6 K) (val6 m a) (@r0 (E2 K), @r0 (E2 K), ((m c, r0) : E2 K)) /\ frame6 K r m (F6_mulGFP K r a c m)).
Proof.
  intros K r a b c m H0 H1 H2 H3. rewrite mulScalar6_eq, mulGFP_eq, leqb_refl by auto.
  split; [split; [reflexivity|apply mulScalar6_frame]|split; [reflexivity|apply mulGFP_frame]].
Qed.
Print Assumptions C33_scalars.
Theorem C33_compare : forall (K : rng) a b (m : mem K),
  (F6_eq K a b m = true <-> val6 m a = val6 m b) /\ (F6_isZero K a m = true <-> val6 m a = @r0 (E6 K)) /\ (F6_isOne K a m = true <-> val6 m a = @r1 (E6 K)).
Proof. intros. split; [apply eq6_ok|]. split; [apply isZero6_ok|apply isOne6_ok]. Qed.
Print Assumptions C33_compare.

Definition show6 (x : E6 F7) : list Z :=
  let s := fun y : E2 F7 => [zv (fst y); zv (snd y)] in s (fst (fst x)) ++ s (snd (fst x)) ++ s (snd x).
(** the conditions on the field hold for Z/7 *)
Lemma F7_cond : is_field F7 /\ ~ square_in (ropp r1 : F7) /\ ~ cube_in (xi F7) /\ is_field (E12 F7).
Proof.
  destruct F7_tower as (A & B & D). split; [exact F7_field|]. split; [exact A|].
  split; [intros H; apply D, xi_cube, H|]. apply tower_fields; auto; exact F7_field.
Qed.
Example C33_ex : show6 (val6 m7 u0) = [3; 2; 1; 6; 3; 2]%Z /\
  show6 (val6 (F6_mul F7 u0 u0 u1 m7) u0) = show6 (@rmul (E6 F7) (val6 m7 u0) (val6 m7 u1)) /\
  show6 (@rmul (E6 F7) (val6 (F6_inv F7 u0 u0 m7) u0) (val6 m7 u0)) = [0; 0; 0; 0; 1; 0]%Z /\
  show6 (val6 (F6_inv F7 u0 u0 m7) u0) <> [0; 0; 0; 0; 1; 0]%Z /\ val6 m7 u0 <> @r0 (E6 F7).
Proof.
  split; [vm_compute; reflexivity|]. split; [vm_compute; reflexivity|]. split; [vm_compute; reflexivity|].
  split; [vm_compute; discriminate|]. intros H. apply (f_equal show6) in H. vm_compute in H. discriminate.
Qed.

(** ** C34.  [E12 K] is E6[w]/(w^2 - t); the value of an F12 element with
    components x, y is y + x w, represented by the pair (y, x). *)
Theorem C34_linear : forall (K : rng) r a b (m : mem K),
  (val12 K (F12_add K r a b m) r = @radd (E12 K) (val12 K m a) (val12 K m b) /\ frame12 K r m (F12_add K r a b m)) /\
  (val12 K (F12_sub K r a b m) r = @rsub (E12 K) (val12 K m a) (val12 K m b) /\ frame12 K r m (F12_sub K r a b m)) /\
  (val12 K (F12_neg K r a m) r = @ropp (E12 K) (val12 K m a) /\ frame12 K r m (F12_neg K r a m)) /\
  (val12 K (F12_conjugate K r a m) r = (fst (val12 K m a), @ropp (E6 K) (snd (val12 K m a))) /\ frame12 K r m (F12_conjugate K r a m)) /\
  (val12 K (F12_copy K r a m) r = val12 K m a /\ frame12 K r m (F12_copy K r a m)).
Proof.
  intros K r a b m. rewrite add12_eq, sub12_eq, neg12_eq, conj12_eq, copy12_eq, !leqb_refl.
  split; [split; [reflexivity|apply add12_frame]|]. split; [split; [reflexivity|apply sub12_frame]|].
  split; [split; [reflexivity|apply neg12_frame]|]. split; [split; [reflexivity|apply conj12_frame]|]. split; [reflexivity|apply copy12_frame].
Qed.
Print Assumptions C34_linear.
Theorem C34_mul : forall (K : rng) r a b (m : mem K),
  val12 K (F12_mul K r a b m) r = @rmul (E12 K) (val12 K m a) (val12 K m b) /\ frame12 K r m (F12_mul K r a b m).
Proof. intros. rewrite mul12_eq, leqb_refl. split; [reflexivity|apply mul12_frame]. Qed.
Print Assumptions C34_mul.
Theorem C34_square : forall (K : rng) r a (m : mem K),
  val12 K (F12_square K r a m) r = @rmul (E12 K) (val12 K m a) (val12 K m a) /\ frame12 K r m (F12_square K r a m).
Proof. intros. rewrite square12_eq, leqb_refl. split; [reflexivity|apply square12_frame]. Qed.
Print Assumptions C34_square.
Theorem C34_inv : forall (K : rng) r a (m : mem K), is_field K -> ~ square_in (ropp r1 : K) ->
  ~ square_in (radd (rmul (nine K) (nine K)) r1) -> ~ cube_in (radd (rmul (nine K) (nine K)) r1) -> val12 K m a <> @r0 (E12 K) ->
  @rmul (E12 K) (val12 K (F12_inv K r a m) r) (val12 K m a) = @r1 (E12 K) /\ frame12 K r m (F12_inv K r a m).
Proof.
  intros K r a m HF N1 N2 N3 Na. split; [|apply inv12_frame]. apply (fld_inv_l (E12 K)); [apply tower_fields; auto|exact Na|].
  rewrite inv12_eq, leqb_refl by (apply nonsquare_negone; [apply HF|auto]). reflexivity.
Qed.
Print Assumptions C34_inv.
Theorem C34_div : forall (K : rng) r a b (m : mem K), is_field K -> ~ square_in (ropp r1 : K) ->
  ~ square_in (radd (rmul (nine K) (nine K)) r1) -> ~ cube_in (radd (rmul (nine K) (nine K)) r1) ->
  loc3 r = false -> loc3 a = false -> val12 K m b <> @r0 (E12 K) ->
  @rmul (E12 K) (val12 K (F12_div K r a b m) r) (val12 K m b) = val12 K m a /\ frame12 K r m (F12_div K r a b m).
Proof.
  intros K r a b m HF N1 N2 N3 Lr La Nb. split; [|apply div12_frame]. apply (fld_div (E12 K)); [apply tower_fields; auto|exact Nb|].
  rewrite div12_eq, leqb_refl; [reflexivity|apply nonsquare_negone; [apply HF|auto]|intros ->; discriminate|intros ->; discriminate].
Qed.
Print Assumptions C34_div.
Theorem C34_mulScalar : forall (K : rng) r a b (m : mem K), b <> C 0 r ->
  val12 K (F12_mulScalar K r a b m) r = @rmul (E12 K) (val12 K m a) ((val6 m b, @r0 (E6 K)) : E12 K) /\ frame12 K r m (F12_mulScalar K r a b m).
Proof. intros K r a b m Hb. rewrite mulScalar12_eq, leqb_refl by auto. split; [reflexivity|apply mulScalar12_frame]. Qed.
Print Assumptions C34_mulScalar.
Theorem C34_compare : forall (K : rng) a b (m : mem K),
  (F12_eq K a b m = true <-> val12 K m a = val12 K m b) /\ (F12_isZero K a m = true <-> val12 K m a = @r0 (E12 K)) /\ (F12_isOne K a m = true <-> val12 K m a = @r1 (E12 K)).
Proof. intros. split; [apply eq12_ok|]. split; [apply isZero12_ok|apply isOne12_ok]. Qed.
Print Assumptions C34_compare.
(** exp with destination different from the base, and at most 2^28 scalar bytes *)
Theorem C34_exp_partial : forall (K : rng) r a (s : list Z) (m : mem K), bytes_ok s -> (Z.of_nat (length s) <= 2 ^ 28)%Z ->
  loc3 r = false -> loc3 a = false -> a <> r ->
  val12 K (F12_exp K r a s m) r = rpow (val12 K m a) (Z.to_nat (le_val s)) /\ frame12 K r m (F12_exp K r a s m).
Proof.
  intros K r a s m Hs Hl Lr La Nar. destruct (exp12_spec K r a s Hs Nar) with (m := m) as (A & _ & B); auto; intros ->; discriminate.
Qed.
Print Assumptions C34_exp_partial.
Definition show12 (x : E12 F7) : list Z := show6 (fst x) ++ show6 (snd x).
(** In place, the base is overwritten by one before it is used: the result is 1. *)
Theorem C34_exp_in_place : forall (K : rng) r (s : list Z) (m : mem K), loc3 r = false -> val12 K (F12_exp K r r s m) r = @r1 (E12 K).
Proof. intros K r s m Lr. apply exp12_alias. intros ->. discriminate. Qed.
Print Assumptions C34_exp_in_place.
Theorem C34_exp_in_place_refuted : exists (K : rng) r (s : list Z) (m : mem K), is_field (E12 K) /\ bytes_ok s /\ (length s = 1)%nat /\
  val12 K (F12_exp K r r s m) r <> rpow (val12 K m r) (Z.to_nat (le_val s)).
Proof.
  exists F7, u0, [1]%Z, m7. split; [apply F7_cond|]. split; [repeat constructor; lia|]. split; [reflexivity|].
  rewrite exp12_alias by discriminate. change (Z.to_nat (le_val [1%Z])) with 1%nat.
  intros H. apply (f_equal show12) in H. vm_compute in H. discriminate.
Qed.
Print Assumptions C34_exp_in_place_refuted.
Example C34_ex : is_field (E12 F7) /\ val12 F7 m7 u0 <> @r0 (E12 F7) /\
  show12 (val12 F7 (F12_mul F7 u0 u0 u1 m7) u0) = show12 (@rmul (E12 F7) (val12 F7 m7 u0) (val12 F7 m7 u1)) /\
  show12 (val12 F7 (F12_mul F7 u0 u0 u1 m7) u0) <> show12 (val12 F7 m7 u0).
Proof.
  split; [apply F7_cond|]. split; [intros H; apply (f_equal show12) in H; vm_compute in H; discriminate|].
  split; [vm_compute; reflexivity|]. vm_compute. discriminate.
Qed.
Example C34_ex_exp : bytes_ok [2; 1]%Z /\ le_val [2; 1]%Z = 258%Z /\ loc3 u0 = false /\ loc3 u1 = false /\ u0 <> u1 /\ show12 (val12 F7 m7 u0) <> show12 (@r1 (E12 F7)).
Proof. split; [repeat constructor; lia|]. repeat split; vm_compute; discriminate. Qed.
