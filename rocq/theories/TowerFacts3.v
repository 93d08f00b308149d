(** The tower: inverses and quotients in fields, wrong cases. *)
From Coq Require Import ZArith List Bool Ring Lia.
From Verif Require Import Bytes BytesFacts Tower TowerAlg TowerFacts TowerFacts2 Zp.
Import ListNotations.

Lemma negone_type (K : rng) : (r1 : K) <> r0 -> (r1 : K) <> ropp r1 -> nr_type K (neg1 K) = nr_is_negone.
Proof.
  intros H0 H1. unfold nr_type, neg1.
  destruct (reqb (ropp r1) (r0 : K)) eqn:E0.
  { exfalso. apply reqb_ok in E0. apply H0. transitivity (radd r1 (ropp r1) : K).
    - rewrite E0, (Radd_comm (r_th K)), (Radd_0_l (r_th K)). reflexivity.
    - apply (Ropp_def (r_th K)). }
  destruct (reqb (ropp r1) (r1 : K)) eqn:E1; [exfalso; apply reqb_ok in E1; congruence|].
  rewrite reqb_refl. reflexivity.
Qed.
Lemma nonsquare_negone (K : rng) : (r1 : K) <> r0 -> ~ square_in (ropp r1 : K) -> nr_type K (neg1 K) = nr_is_negone.
Proof.
  intros H0 H1. apply negone_type; [auto|]. intros E. apply H1. exists r1. rewrite (Rmul_1_l (r_th K)). exact E.
Qed.
Lemma fld_div (K : rng) : is_field K -> forall x y z : K, y <> r0 -> z = rmul x (rinv y) -> rmul z y = x.
Proof.
  intros HF x y z Ny ->. pose proof (proj2 HF y Ny) as I.
  rewrite <- (Rmul_assoc (r_th K)), (Rmul_comm (r_th K) (rinv y)), I, (Rmul_comm (r_th K)), (Rmul_1_l (r_th K)). reflexivity.
Qed.
Lemma fld_inv_l (K : rng) : is_field K -> forall x z : K, x <> r0 -> z = rinv x -> rmul z x = r1.
Proof. intros HF x z Nx ->. rewrite (Rmul_comm (r_th K)). apply HF, Nx. Qed.
Lemma mul_0_l' (K : rng) (x : K) : rmul r0 x = r0.
Proof. rewrite (Rmul_comm (r_th K)). apply mul_0_r. Qed.
