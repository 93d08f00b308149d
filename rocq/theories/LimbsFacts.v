(** Facts about limb arrays (proofs only; no model definitions). *)
From Coq Require Import ZArith List Lia Bool ZifyBool.
From Verif Require Import Limbs.
Import ListNotations.
Open Scope Z_scope.

Lemma B_eq : B = 2 ^ 64. Proof. reflexivity. Qed.
Lemma B_pos : 0 < B. Proof. reflexivity. Qed.
Lemma B_gt1 : 1 < B. Proof. reflexivity. Qed.
Lemma Bpow_pos n : 0 < B ^ Z.of_nat n.
Proof. apply Z.pow_pos_nonneg; [apply B_pos | lia]. Qed.
Lemma Bpow_S n : B ^ Z.of_nat (S n) = B * B ^ Z.of_nat n.
Proof. rewrite Nat2Z.inj_succ, Z.pow_succ_r by lia. reflexivity. Qed.
Lemma Bpow_ge1 n : 1 <= B ^ Z.of_nat n.
Proof. pose proof (Bpow_pos n); lia. Qed.
Lemma Bpow_le n m : (n <= m)%nat -> B ^ Z.of_nat n <= B ^ Z.of_nat m.
Proof. intros; apply Z.pow_le_mono_r; [apply B_pos|lia]. Qed.

Lemma to_limbs_length n z : length (to_limbs n z) = n.
Proof. revert z; induction n; cbn; auto. Qed.

Lemma to_limbs_ok n z : limbs_ok n (to_limbs n z).
Proof.
  split; [apply to_limbs_length|].
  revert z; induction n; intros; cbn [to_limbs]; constructor; auto.
  apply Z.mod_pos_bound, B_pos.
Qed.

Lemma eval_to_limbs n z : eval (to_limbs n z) = z mod B ^ Z.of_nat n.
Proof.
  revert z; induction n; intros.
  - cbn. now rewrite Z.mod_1_r.
  - cbn [to_limbs eval]. rewrite IHn, Bpow_S.
    pose proof (Bpow_pos n). pose proof B_pos.
    rewrite Z.rem_mul_r by lia. reflexivity.
Qed.

Lemma eval_bound n l : limbs_ok n l -> 0 <= eval l < B ^ Z.of_nat n.
Proof.
  intros [<- H]. induction H.
  - cbn; lia.
  - cbn [eval length]. rewrite Bpow_S. nia.
Qed.

Lemma to_limbs_eval n l : limbs_ok n l -> to_limbs n (eval l) = l.
Proof.
  intros [<- H]. induction H.
  - reflexivity.
  - cbn [eval length to_limbs].
    rewrite (Z.mul_comm B), Z.mod_add, Z.div_add by (pose proof B_pos; lia).
    rewrite Z.mod_small, Z.div_small by lia. rewrite Z.add_0_l, IHForall. reflexivity.
Qed.

Lemma eval_inj n a b : limbs_ok n a -> limbs_ok n b -> eval a = eval b -> a = b.
Proof.
  intros Ha Hb E. rewrite <- (to_limbs_eval n a), <- (to_limbs_eval n b) by auto.
  now rewrite E.
Qed.

Lemma eval_to_limbs_small n z : 0 <= z < B ^ Z.of_nat n -> eval (to_limbs n z) = z.
Proof. intros; rewrite eval_to_limbs; apply Z.mod_small; auto. Qed.

Lemma eval_app a b : eval (a ++ b) = eval a + B ^ Z.of_nat (length a) * eval b.
Proof.
  induction a; cbn [eval app length].
  - change (B ^ Z.of_nat 0) with 1. ring.
  - rewrite Bpow_S, IHa. ring.
Qed.

Lemma limbs_ok_app n m a b : limbs_ok n a -> limbs_ok m b -> limbs_ok (n + m) (a ++ b).
Proof. intros [? ?] [? ?]; split; [rewrite app_length; lia | apply Forall_app; auto]. Qed.

Lemma limbs_ok_cons n x l : 0 <= x < B -> limbs_ok n l -> limbs_ok (S n) (x :: l).
Proof. intros ? [? ?]; split; cbn; auto. Qed.

Lemma limbs_ok_inv n x l : limbs_ok (S n) (x :: l) -> 0 <= x < B /\ limbs_ok n l.
Proof. intros [H1 H2]. inversion H2; subst. split; auto. split; auto. Qed.

Lemma limbs_ok_S n l : limbs_ok (S n) l -> exists x t, l = x :: t /\ 0 <= x < B /\ limbs_ok n t.
Proof.
  destruct l; intros H. { destruct H; discriminate. }
  apply limbs_ok_inv in H. eauto.
Qed.

Lemma eval_repeat0 n : eval (repeat 0 n) = 0.
Proof. induction n; cbn [repeat eval]; lia. Qed.
Lemma limbs_ok_repeat0 n : limbs_ok n (repeat 0 n).
Proof. split; [apply repeat_length|]. apply Forall_forall. intros x Hx.
  apply repeat_spec in Hx; subst. pose proof B_pos; lia. Qed.

Lemma get_ok n l i : limbs_ok n l -> (i < n)%nat -> 0 <= get l i < B.
Proof.
  intros [Hl HF] Hi. unfold get. rewrite Forall_forall in HF. apply HF, nth_In. lia.
Qed.

Lemma set_length l i v : length (set l i v) = length l.
Proof. revert i; induction l; destruct i; cbn; auto. Qed.

Lemma set_ok n l i v : limbs_ok n l -> 0 <= v < B -> limbs_ok n (set l i v).
Proof.
  intros [Hl HF] Hv. split; [now rewrite set_length|].
  clear Hl. revert i; induction HF; destruct i; cbn; constructor; auto.
Qed.

Lemma get_set_eq l i v : (i < length l)%nat -> get (set l i v) i = v.
Proof. revert i; unfold get; induction l; destruct i; cbn; intros; try lia; auto. apply IHl; lia. Qed.

Lemma get_set_neq l i j v : i <> j -> get (set l i v) j = get l j.
Proof.
  revert i j; unfold get; induction l; destruct i, j; cbn; intros; try lia; auto.
Qed.

Lemma eval_set l i v : (i < length l)%nat ->
  eval (set l i v) = eval l + (v - get l i) * B ^ Z.of_nat i.
Proof.
  revert i; unfold get; induction l; destruct i; intros Hi; cbn [length] in Hi; try lia.
  - cbn [set eval nth]. change (B ^ Z.of_nat 0) with 1. ring.
  - cbn [set eval nth]. rewrite IHl by lia. rewrite Bpow_S. ring.
Qed.

Lemma get_eval n l i : limbs_ok n l -> (i < n)%nat ->
  get l i = (eval l / B ^ Z.of_nat i) mod B.
Proof.
  revert n l; induction i; intros n l Hok Hi.
  - destruct n; [lia|]. apply limbs_ok_S in Hok as (x & t & -> & Hx & Ht).
    cbn [eval get nth]. unfold get; cbn [nth]. change (B ^ Z.of_nat 0) with 1.
    rewrite Z.div_1_r, Z.mul_comm, Z.mod_add by (pose proof B_pos; lia).
    now rewrite Z.mod_small.
  - destruct n; [lia|]. apply limbs_ok_S in Hok as (x & t & -> & Hx & Ht).
    unfold get; cbn [nth eval]. change (nth i t 0) with (get t i).
    rewrite (IHi n t) by (auto; lia).
    rewrite Bpow_S, <- Z.div_div by (pose proof B_pos; pose proof (Bpow_pos i); lia).
    f_equal. f_equal. rewrite Z.mul_comm, Z.div_add by (pose proof B_pos; lia).
    rewrite Z.div_small by lia. lia.
Qed.

Lemma mpn_cmp_lt a b : mpn_cmp a b < 0 <-> eval a < eval b.
Proof. unfold mpn_cmp. destruct (Z.compare_spec (eval a) (eval b)); lia. Qed.
Lemma mpn_cmp_gt a b : mpn_cmp a b > 0 <-> eval a > eval b.
Proof. unfold mpn_cmp. destruct (Z.compare_spec (eval a) (eval b)); lia. Qed.
Lemma mpn_cmp_eq a b : mpn_cmp a b = 0 <-> eval a = eval b.
Proof. unfold mpn_cmp. destruct (Z.compare_spec (eval a) (eval b)); lia. Qed.
Lemma mpn_cmp_ge a b : (mpn_cmp a b >=? 0) = (eval b <=? eval a).
Proof. unfold mpn_cmp. destruct (Z.compare_spec (eval a) (eval b)); lia. Qed.

(** ** Bitwise operations *)

Lemma B_log2 : B = 2 ^ 64. Proof. reflexivity. Qed.

Lemma testbit_split x t i : 0 <= x < B -> 0 <= i ->
  Z.testbit (x + B * t) i = if i <? 64 then Z.testbit x i else Z.testbit t (i - 64).
Proof.
  intros Hx Hi. rewrite B_log2 in *.
  destruct (Z.ltb_spec i 64).
  - rewrite <- (Z.mod_pow2_bits_low (x + 2 ^ 64 * t) 64 i) by lia.
    rewrite Z.mul_comm, Z.mod_add by lia. now rewrite Z.mod_small.
  - replace i with ((i - 64) + 64) at 1 by lia.
    rewrite <- Z.div_pow2_bits by lia.
    rewrite Z.mul_comm, Z.div_add, Z.div_small by lia. now rewrite Z.add_0_l.
Qed.

Section Bitwise.
  Variable f : Z -> Z -> Z.
  Variable fb : bool -> bool -> bool.
  Hypothesis f_spec : forall a b i, 0 <= i -> Z.testbit (f a b) i = fb (Z.testbit a i) (Z.testbit b i).
  Hypothesis fb_ff : fb false false = false.

  Lemma bitop_bound n a b : 0 <= n -> 0 <= a < 2 ^ n -> 0 <= b < 2 ^ n -> 0 <= f a b -> 0 <= f a b < 2 ^ n.
  Proof.
    intros Hn Ha Hb Hf. split; auto.
    assert (E : f a b = f a b mod 2 ^ n).
    { apply Z.bits_inj'. intros i Hi.
      destruct (Z.ltb_spec i n).
      - now rewrite Z.mod_pow2_bits_low by lia.
      - rewrite Z.mod_pow2_bits_high by lia. rewrite f_spec by lia.
        assert (forall z, 0 <= z < 2 ^ n -> Z.testbit z i = false) as HH.
        { intros z Hz. rewrite <- (Z.mod_small z (2 ^ n)) by auto. apply Z.mod_pow2_bits_high; lia. }
        rewrite !HH by auto. auto. }
    rewrite E. apply Z.mod_pos_bound, Z.pow_pos_nonneg; lia.
  Qed.
  Hypothesis f_nonneg : forall a b, 0 <= a -> 0 <= b -> 0 <= f a b.

  Lemma bitop_word a b : 0 <= a < B -> 0 <= b < B -> 0 <= f a b < B.
  Proof.
    intros. rewrite B_log2 in *. apply bitop_bound; try lia. apply f_nonneg; lia.
  Qed.

  Lemma eval_map2 n a b : limbs_ok n a -> limbs_ok n b ->
    limbs_ok n (map2 f a b) /\ eval (map2 f a b) = f (eval a) (eval b).
  Proof.
    revert a b; induction n; intros a b Ha Hb.
    - destruct Ha as [Ha _], Hb as [Hb _].
      destruct a, b; try discriminate. cbn. split; [split; auto|].
      apply Z.bits_inj'. intros i Hi. rewrite f_spec, !Z.bits_0 by lia. auto.
    - apply limbs_ok_S in Ha as (x & t & -> & Hx & Ht).
      apply limbs_ok_S in Hb as (y & u & -> & Hy & Hu).
      destruct (IHn t u Ht Hu) as [IH1 IH2].
      cbn [map2]. split.
      + apply limbs_ok_cons; auto. apply bitop_word; auto.
      + cbn [eval]. rewrite IH2. apply Z.bits_inj'. intros i Hi.
        rewrite f_spec, !testbit_split by (auto using bitop_word).
        destruct (i <? 64) eqn:E; apply eq_sym; rewrite f_spec; auto; lia.
  Qed.
End Bitwise.

Lemma land_nonneg' a b : 0 <= a -> 0 <= b -> 0 <= Z.land a b.
Proof. intros; apply Z.land_nonneg; auto. Qed.
Lemma lor_nonneg' a b : 0 <= a -> 0 <= b -> 0 <= Z.lor a b.
Proof. intros; apply Z.lor_nonneg; auto. Qed.
Lemma lxor_nonneg' a b : 0 <= a -> 0 <= b -> 0 <= Z.lxor a b.
Proof. intros; apply Z.lxor_nonneg; lia. Qed.

Lemma eval_and n a b : limbs_ok n a -> limbs_ok n b ->
  limbs_ok n (mpn_and_n a b) /\ eval (mpn_and_n a b) = Z.land (eval a) (eval b).
Proof. apply (eval_map2 Z.land andb); auto using land_nonneg'. intros; apply Z.land_spec. Qed.
Lemma eval_or n a b : limbs_ok n a -> limbs_ok n b ->
  limbs_ok n (mpn_ior_n a b) /\ eval (mpn_ior_n a b) = Z.lor (eval a) (eval b).
Proof. apply (eval_map2 Z.lor orb); auto using lor_nonneg'. intros; apply Z.lor_spec. Qed.
Lemma eval_xor n a b : limbs_ok n a -> limbs_ok n b ->
  limbs_ok n (mpn_xor_n a b) /\ eval (mpn_xor_n a b) = Z.lxor (eval a) (eval b).
Proof. apply (eval_map2 Z.lxor xorb); auto using lxor_nonneg'. intros; apply Z.lxor_spec. Qed.

Lemma eval_com n a : limbs_ok n a ->
  limbs_ok n (mpn_com a) /\ eval (mpn_com a) = B ^ Z.of_nat n - 1 - eval a.
Proof.
  intros [<- H]. unfold mpn_com. induction H as [|x l Hx Hl [IH1 IH2]].
  - cbn. split; [split; auto|lia].
  - cbn [map length eval]. split.
    + apply limbs_ok_cons; auto. lia.
    + rewrite IH2, Bpow_S. ring.
Qed.
