(** The integers modulo p as an instance of [rng]; a field when p is prime. *)
From Coq Require Import ZArith Znumtheory List Bool Ring Lia Eqdep_dec.
From Verif Require Import Gen GenFacts ModRing NumTheory Tower TowerAlg.
Import ListNotations.
Open Scope Z_scope.

Record zp (p : Z) := mkzp { zv : Z; zok : (zv mod p =? zv) = true }.
Arguments zv {p}. Arguments zok {p}. Arguments mkzp {p}.
Lemma zp_eq p (x y : zp p) : zv x = zv y -> x = y.
Proof.
  destruct x as [x hx], y as [y hy]. cbn. intros <-. f_equal. apply UIP_dec, bool_dec.
Qed.
Section Zp.
Variable p : Z.
Hypothesis Hp : 1 < p.
Lemma mod_ok x : (x mod p mod p =? x mod p) = true.
Proof. apply Z.eqb_eq, Z.mod_mod. lia. Qed.
Definition tozp (x : Z) : zp p := mkzp (x mod p) (mod_ok x).
Lemma zv_mod (x : zp p) : zv x mod p = zv x. Proof. apply Z.eqb_eq, zok. Qed.
Lemma zv_bound (x : zp p) : 0 <= zv x < p. Proof. rewrite <- zv_mod. apply Z.mod_pos_bound. lia. Qed.
Definition zinv (x : Z) : Z := match modInv x p with Some i => i | None => 0 end.
Lemma zp_th : ring_theory (tozp 0) (tozp 1) (fun x y => tozp (zv x + zv y)) (fun x y => tozp (zv x * zv y))
  (fun x y => tozp (zv x - zv y)) (fun x => tozp (- zv x)) eq.
Proof.
  split; intros; apply zp_eq; cbn [zv tozp];
    repeat match goal with x : zp p |- _ => generalize (zv_mod x); generalize (zv x); intros ? ?; clear x end.
  - rewrite Zplus_mod_idemp_l. auto.
  - f_equal; ring.
  - rewrite Zplus_mod_idemp_r, Zplus_mod_idemp_l. f_equal; ring.
  - rewrite Zmult_mod_idemp_l. rewrite Z.mul_1_l. auto.
  - f_equal; ring.
  - rewrite Zmult_mod_idemp_r, Zmult_mod_idemp_l. f_equal; ring.
  - rewrite Zmult_mod_idemp_l, Zplus_mod_idemp_r, Zplus_mod_idemp_l. f_equal; ring.
  - rewrite Zplus_mod_idemp_r. f_equal; ring.
  - rewrite Zplus_mod_idemp_r. f_equal; ring.
Qed.
Lemma zp_eqb_ok (x y : zp p) : (zv x =? zv y) = true <-> x = y.
Proof. rewrite Z.eqb_eq. split; [apply zp_eq|congruence]. Qed.
Definition Zp : rng := {| rcar := zp p; r0 := tozp 0; r1 := tozp 1; radd x y := tozp (zv x + zv y); rmul x y := tozp (zv x * zv y);
  rsub x y := tozp (zv x - zv y); ropp x := tozp (- zv x); rinv x := tozp (zinv (zv x)); reqb x y := zv x =? zv y;
  r_th := zp_th; reqb_ok := zp_eqb_ok |}.
Theorem Zp_field : prime p -> is_field Zp.
Proof.
  intros HP. split.
  - intros H. apply (f_equal zv) in H. change (1 mod p = 0 mod p) in H. rewrite Z.mod_small, Z.mod_0_l in H; lia.
  - intros x Nx. apply zp_eq. change ((zv x * (zinv (zv x) mod p)) mod p = 1 mod p). rewrite Zmult_mod_idemp_r. rewrite (Z.mod_small 1) by lia.
    assert (N0 : zv x <> 0). { intros E. apply Nx, zp_eq. change (zv x = 0 mod p). rewrite E, Z.mod_0_l; lia. }
    pose proof (zv_bound x) as B.
    assert (G : Z.gcd (zv x) p = 1). { apply Zgcd_1_rel_prime, rel_prime_sym, prime_rel_prime; [auto|]. intros D. apply Z.divide_pos_le in D; lia. }
    unfold zinv. destruct (modInv_complete (zv x) p Hp G) as [i Ei]. rewrite Ei. apply modInv_some in Ei as [_ Ei]; auto.
Qed.
(** the whole ring as a list, to decide statements about small p *)
Definition all_zp : list (zp p) := map (fun i => tozp (Z.of_nat i)) (seq 0 (Z.to_nat p)).
Lemma all_zp_in x : In x all_zp.
Proof.
  pose proof (zv_bound x) as B. apply in_map_iff. exists (Z.to_nat (zv x)). split.
  - apply zp_eq. cbn. rewrite Z2Nat.id by lia. apply zv_mod.
  - apply in_seq. lia.
Qed.
Lemma no_square (x : Zp) : forallb (fun y : Zp => negb (reqb (rmul y y) x)) all_zp = true -> ~ square_in x.
Proof.
  intros H [y Hy]. rewrite forallb_forall in H. specialize (H y (all_zp_in y)). rewrite Hy, reqb_refl in H. discriminate.
Qed.
Lemma no_cube (x : Zp) : forallb (fun y : Zp => negb (reqb (rmul (rmul y y) y) x)) all_zp = true -> ~ cube_in x.
Proof.
  intros H [y Hy]. rewrite forallb_forall in H. specialize (H y (all_zp_in y)). rewrite Hy, reqb_refl in H. discriminate.
Qed.
End Zp.
(** p = 7 *)
Lemma seven_gt1 : 1 < 7. Proof. reflexivity. Qed.
Lemma prime_7 : prime 7. Proof. apply trial_prime; vm_compute; reflexivity. Qed.
Definition F7 : rng := Zp 7 seven_gt1.
Definition f7 (x : Z) : F7 := tozp 7 seven_gt1 x.
Lemma F7_field : is_field F7. Proof. apply Zp_field, prime_7. Qed.
Lemma F7_tower : ~ square_in (ropp r1 : F7) /\ ~ square_in (radd (rmul (nine F7) (nine F7)) r1) /\ ~ cube_in (radd (rmul (nine F7) (nine F7)) r1).
Proof. repeat split; [apply no_square|apply no_square|apply no_cube]; vm_compute; reflexivity. Qed.
