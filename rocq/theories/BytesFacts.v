From Coq Require Import ZArith List Lia Bool ZifyBool.
From Verif Require Import Bytes.
Import ListNotations.
Open Scope Z_scope.

Lemma le_val_bound l : bytes_ok l -> 0 <= le_val l < 256 ^ Z.of_nat (length l).
Proof.
  induction 1 as [|x t Hx _ IH]; [cbn; lia|]. cbn [le_val length].
  rewrite Nat2Z.inj_succ, Z.pow_succ_r by lia. lia.
Qed.
Lemma le_bytes_length k v : length (le_bytes k v) = k.
Proof. revert v; induction k; intros; cbn; auto. Qed.
Lemma le_bytes_ok k v : bytes_ok (le_bytes k v).
Proof.
  revert v; induction k; intros v; [constructor|]. cbn [le_bytes]. apply Forall_cons; [apply Z.mod_pos_bound; lia|apply IHk].
Qed.
Lemma le_val_bytes k v : le_val (le_bytes k v) = v mod 256 ^ Z.of_nat k.
Proof.
  revert v; induction k; intros v; [cbn; rewrite Z.mod_1_r; auto|].
  cbn [le_bytes le_val]. rewrite IHk, Nat2Z.inj_succ, Z.pow_succ_r by lia.
  rewrite Z.rem_mul_r by lia. lia.
Qed.
Lemma le_bytes_val l : bytes_ok l -> le_bytes (length l) (le_val l) = l.
Proof.
  induction 1 as [|x t Hx _ IH]; [reflexivity|]. cbn [length le_bytes le_val].
  rewrite Z.mul_comm at 1. rewrite Z.mod_add, Z.mod_small by lia.
  rewrite (Z.mul_comm 256), Z.div_add, Z.div_small by lia. cbn. rewrite IH. reflexivity.
Qed.
Lemma le_val_app a b : le_val (a ++ b) = le_val a + 256 ^ Z.of_nat (length a) * le_val b.
Proof.
  induction a as [|x a IH]; [cbn; destruct (le_val b); lia|]. cbn [app le_val length]. rewrite IH, Nat2Z.inj_succ, Z.pow_succ_r by lia. lia.
Qed.
Lemma rev_bytes_ok l : bytes_ok l -> bytes_ok (rev l).
Proof. unfold bytes_ok. rewrite !Forall_forall. intros H x Hx. apply H. rewrite in_rev. exact Hx. Qed.
Lemma be_bytes_length k v : length (be_bytes k v) = k.
Proof. unfold be_bytes. rewrite rev_length. apply le_bytes_length. Qed.
Lemma be_bytes_ok k v : bytes_ok (be_bytes k v).
Proof. apply rev_bytes_ok, le_bytes_ok. Qed.
Lemma be_val_bytes k v : be_val (be_bytes k v) = v mod 256 ^ Z.of_nat k.
Proof. unfold be_val, be_bytes. rewrite rev_involutive. apply le_val_bytes. Qed.
Lemma be_val_bound l : bytes_ok l -> 0 <= be_val l < 256 ^ Z.of_nat (length l).
Proof. intros H. unfold be_val. rewrite <- (rev_length l). apply le_val_bound, rev_bytes_ok, H. Qed.

Lemma land_pow2 x k : 0 <= k -> negb (Z.land x (Z.shiftl 1 k) =? 0) = Z.testbit x k.
Proof.
  intros Hk. rewrite Z.shiftl_1_l. destruct (Z.testbit x k) eqn:E.
  - destruct (Z.eqb_spec (Z.land x (2 ^ k)) 0) as [E'|]; [|reflexivity].
    assert (H : Z.testbit (Z.land x (2 ^ k)) k = true) by (rewrite Z.land_spec, E, Z.pow2_bits_true; auto).
    rewrite E', Z.bits_0 in H. discriminate.
  - replace (Z.land x (2 ^ k)) with 0; [reflexivity|]. symmetry. apply Z.bits_inj'. intros i Hi.
    rewrite Z.land_spec, Z.bits_0. destruct (Z.eq_dec i k) as [->|].
    + rewrite E. reflexivity.
    + rewrite Z.pow2_bits_false by lia. apply andb_false_r.
Qed.

Lemma le_val_testbit l : bytes_ok l -> forall i, 0 <= i ->
  Z.testbit (le_val l) i = Z.testbit (nth (Z.to_nat (i / 8)) l 0) (i mod 8).
Proof.
  induction 1 as [|x t Hx Ht IH]; intros i Hi.
  - cbn [le_val]. rewrite Z.bits_0. destruct (Z.to_nat (i / 8)); cbn; rewrite Z.bits_0; auto.
  - cbn [le_val]. destruct (Z_lt_ge_dec i 8) as [L|L].
    + rewrite (Z.div_small i 8), (Z.mod_small i 8) by lia. cbn [Z.to_nat nth].
      rewrite <- (Z.mod_pow2_bits_low (x + 256 * le_val t) 8 i) by lia.
      change (2 ^ 8) with 256. rewrite Z.mul_comm, Z.mod_add, Z.mod_small by lia. reflexivity.
    + replace (Z.to_nat (i / 8)) with (S (Z.to_nat ((i - 8) / 8))).
      2:{ replace i with ((i - 8) + 1 * 8) at 2 by lia. rewrite Z.div_add by lia.
          pose proof (Z.div_pos (i - 8) 8 ltac:(lia) ltac:(lia)). lia. }
      cbn [nth]. replace (i mod 8) with ((i - 8) mod 8).
      2:{ replace i with ((i - 8) + 1 * 8) at 2 by lia. rewrite Z.mod_add; lia. }
      rewrite <- IH by lia. replace i with ((i - 8) + 8) at 1 by lia.
      rewrite <- Z.div_pow2_bits by lia. change (2 ^ 8) with 256.
      rewrite Z.mul_comm, Z.div_add, Z.div_small by lia. f_equal.
Qed.

Lemma bit_is_set_spec s p : bytes_ok s -> bit_is_set s p = Z.testbit (le_val s) (Z.of_nat p).
Proof.
  intros H. unfold bit_is_set. rewrite land_pow2 by (apply Z.mod_pos_bound; lia).
  rewrite le_val_testbit by (auto; lia). f_equal. f_equal.
  rewrite <- (Nat2Z.id (p / 8)), Nat2Z.inj_div. reflexivity.
Qed.

Lemma half_bits k i : 0 <= k -> 0 <= i ->
  k / 2 ^ i = 2 * (k / 2 ^ (i + 1)) + Z.b2z (Z.testbit k i).
Proof.
  intros Hk Hi. rewrite Z.pow_add_r, <- Z.div_div by lia. change (2 ^ 1) with 2.
  rewrite (Z.div_mod (k / 2 ^ i) 2) at 1 by lia. f_equal.
  rewrite Z.testbit_spec' by lia. reflexivity.
Qed.
