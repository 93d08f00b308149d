(** Shifts of numbers given by their limbs. *)
From Coq Require Import ZArith List Bool Arith Lia.
From Verif Require Import Limbs LimbsFacts X86 X86Sim X86Mont X86Call X86Raw X86RawFacts X86RawFacts2 X86RawFacts3 X86T X86TWords X86TFacts X86TInv X86TLoop X86TBitLoop.
Import ListNotations.
Open Scope Z_scope.

(** the masks and the combination of two limbs *)
Lemma mask_low x c : 0 <= x < B -> 0 <= c <= 64 -> Z.land (x / 2 ^ c) (2 ^ (64 - c) - 1) = x / 2 ^ c.
Proof.
  intros Hx Hc. rewrite Z.sub_1_r, <- Z.ones_equiv, Z.land_ones by lia. apply Z.mod_small. rewrite B_eq in Hx. split; [apply Z.div_pos; [lia|apply Z.pow_pos_nonneg; lia]|].
  apply Z.div_lt_upper_bound; [apply Z.pow_pos_nonneg; lia|]. rewrite <- Z.pow_add_r by lia. replace (c + (64 - c)) with 64 by lia. lia.
Qed.
Lemma high_part y k : 0 <= k <= 64 -> y * 2 ^ k mod B = 2 ^ k * (y mod 2 ^ (64 - k)).
Proof.
  intros Hk. rewrite B_eq. replace (2 ^ 64) with (2 ^ k * 2 ^ (64 - k)) by (rewrite <- Z.pow_add_r by lia; f_equal; lia). rewrite (Z.mul_comm y). apply Z.mul_mod_distr_l; apply Z.pow_nonzero; lia.
Qed.
Lemma mask_high z k : 0 <= k <= 64 -> 0 <= z < 2 ^ (64 - k) -> Z.land (2 ^ k * z) (B - 1 - (2 ^ k - 1)) = 2 ^ k * z.
Proof.
  intros Hk Hz. rewrite B_eq. replace (2 ^ 64 - 1 - (2 ^ k - 1)) with (2 ^ k * (2 ^ (64 - k) - 1)).
  2:{ rewrite Z.mul_sub_distr_l, <- Z.pow_add_r by lia. replace (k + (64 - k)) with 64 by lia. lia. }
  rewrite !(Z.mul_comm (2 ^ k)), <- !Z.shiftl_mul_pow2, <- Z.shiftl_land by lia. f_equal. rewrite Z.sub_1_r, <- Z.ones_equiv, Z.land_ones by lia. apply Z.mod_small, Hz.
Qed.
Lemma lor_split a b k : 0 <= k -> 0 <= a < 2 ^ k -> Z.lor a (2 ^ k * b) = a + 2 ^ k * b.
Proof.
  intros Hk Ha. apply Z.bits_inj'. intros i Hi. rewrite Z.lor_spec, tb_split by assumption. replace (2 ^ k * b) with (0 + 2 ^ k * b) by ring. rewrite (tb_split k 0) by (try assumption; pose proof (Z.pow_pos_nonneg 2 k ltac:(lia) Hk); lia).
  destruct (Z.ltb_spec i k) as [L|L]; [rewrite Z.testbit_0_l, orb_false_r; reflexivity|]. destruct (Z.eq_dec a 0) as [->|]; [rewrite Z.testbit_0_l; reflexivity|]. rewrite (Z.bits_above_log2 a); [reflexivity|lia|]. apply Z.log2_lt_pow2; [lia|]. apply Z.lt_le_trans with (2 ^ k); [lia|apply Z.pow_le_mono_r; lia].
Qed.
Lemma shr_limb x y c : 0 < c < 64 -> 0 <= x < B -> 0 <= y < B ->
  Z.lor (Z.land (x / 2 ^ c) (2 ^ (64 - c) - 1)) (Z.land (y * 2 ^ (64 - c) mod B) (B - 1 - (2 ^ (64 - c) - 1))) = x / 2 ^ c + 2 ^ (64 - c) * (y mod 2 ^ c).
Proof.
  intros Hc Hx Hy. rewrite mask_low, high_part by lia. replace (64 - (64 - c)) with c by lia. rewrite mask_high; [|lia|replace (64 - (64 - c)) with c by lia; apply Z.mod_pos_bound, Z.pow_pos_nonneg; lia].
  apply lor_split; [lia|]. rewrite B_eq in Hx. split; [apply Z.div_pos; [lia|apply Z.pow_pos_nonneg; lia]|]. apply Z.div_lt_upper_bound; [apply Z.pow_pos_nonneg; lia|]. rewrite <- Z.pow_add_r by lia. replace (c + (64 - c)) with 64 by lia. lia.
Qed.
Lemma shl_limb x y c : 0 < c < 64 -> 0 <= x < B -> 0 <= y < B ->
  Z.lor (Z.land (x * 2 ^ c mod B) (B - 1 - (2 ^ c - 1))) (Z.land (y / 2 ^ (64 - c)) (2 ^ c - 1)) = 2 ^ c * (x mod 2 ^ (64 - c)) + y / 2 ^ (64 - c).
Proof.
  intros Hc Hx Hy. rewrite Z.lor_comm. pose proof (shr_limb y x (64 - c) ltac:(lia) Hy Hx) as H. replace (64 - (64 - c)) with c in H by lia. rewrite H. lia.
Qed.
(** the limbs of a number *)
Lemma es_digits N k : es (fun i => N / B ^ Z.of_nat i mod B) k = N mod B ^ Z.of_nat k.
Proof.
  induction k as [|k IH]; [cbn; rewrite Z.mod_1_r; reflexivity|]. cbn [es]. rewrite IH. pose proof (Bpow_pos k). pose proof B_pos. rewrite Bpow_S. replace (B * B ^ Z.of_nat k) with (B ^ Z.of_nat k * B) by ring. rewrite Z.rem_mul_r by lia. ring.
Qed.
Lemma es_head x k : es x (S k) = x 0%nat + B * es (fun i => x (S i)) k.
Proof. induction k as [|k IH]; [cbn; lia|]. cbn [es] in *. rewrite IH. rewrite Bpow_S. ring. Qed.
Lemma es_div x k j : (forall i, 0 <= x i < B) -> (j <= k)%nat -> es x k / B ^ Z.of_nat j = es (fun i => x (i + j)%nat) (k - j).
Proof.
  intros Hx. revert k. induction j as [|j IH]; intros k Hj.
  - rewrite Nat.sub_0_r. rewrite Z.div_1_r. apply es_ext. intros i _. f_equal. lia.
  - rewrite Bpow_S. pose proof (Bpow_pos j). pose proof B_pos. replace (B * B ^ Z.of_nat j) with (B ^ Z.of_nat j * B) by ring. rewrite <- Z.div_div, IH by lia.
    replace (k - j)%nat with (S (k - S j)) by lia. rewrite es_head. cbn [Nat.add]. rewrite (Z.mul_comm B), Z.div_add by lia. rewrite Z.div_small by apply Hx. rewrite Z.add_0_l. apply es_ext. intros i _. f_equal. lia.
Qed.
Lemma es_more x n k : (n <= k)%nat -> (forall i, (n <= i)%nat -> x i = 0) -> es x k = es x n.
Proof. intros Hk H. induction Hk as [|k Hk IH]; [reflexivity|]. cbn [es]. rewrite H, IH by lia. ring. Qed.
(** one limb of a shifted number *)
Lemma shr_digit x n w c j : (forall i, 0 <= x i < B) -> (forall i, (n <= i)%nat -> x i = 0) -> 0 <= c <= 64 ->
  es x n / 2 ^ (64 * Z.of_nat w + c) / B ^ Z.of_nat j mod B = x (j + w)%nat / 2 ^ c + 2 ^ (64 - c) * (x (j + w + 1)%nat mod 2 ^ c).
Proof.
  intros Hx Hz Hc. pose proof (Bpow_pos j). pose proof (Bpow_pos (j + w)). assert (P1 : 0 < 2 ^ c) by (apply Z.pow_pos_nonneg; lia). assert (P2 : 0 < 2 ^ (64 - c)) by (apply Z.pow_pos_nonneg; lia). assert (EB : B = 2 ^ c * 2 ^ (64 - c)) by (rewrite <- Z.pow_add_r, B_eq by lia; f_equal; lia).
  assert (P3 : 0 < 2 ^ (64 * Z.of_nat w + c)) by (apply Z.pow_pos_nonneg; lia). rewrite Z.div_div by lia. replace (2 ^ (64 * Z.of_nat w + c) * B ^ Z.of_nat j) with (B ^ Z.of_nat (j + w) * 2 ^ c).
  2:{ rewrite Z.pow_add_r, Nat2Z.inj_add, Z.pow_add_r by lia. rewrite (Z.pow_mul_r 2 64) by lia. change (2 ^ 64) with B. ring. }
  rewrite <- Z.div_div by lia. rewrite <- (es_more x n (j + w + 2 + n)) by (try assumption; lia). rewrite es_div by (try assumption; lia).
  replace (j + w + 2 + n - (j + w))%nat with (S (S n)) by lia. rewrite es_head, es_head. cbn [Nat.add]. set (a := x (j + w)%nat). replace (x (S (j + w))) with (x (j + w + 1)%nat) by (f_equal; lia). set (b := x (j + w + 1)%nat). set (r := es _ n).
  assert (Ra : 0 <= a < B) by apply Hx. assert (Rb : 0 <= b < B) by apply Hx.
  replace (a + B * (b + B * r)) with (a + (2 ^ (64 - c) * (b + B * r)) * 2 ^ c) by (rewrite EB; ring). rewrite Z.div_add by lia.
  assert (Eb : b + B * r = b mod 2 ^ c + 2 ^ c * (b / 2 ^ c + 2 ^ (64 - c) * r)) by (rewrite EB; pose proof (Z.div_mod b (2 ^ c) ltac:(lia)); nia).
  rewrite Eb. replace (a / 2 ^ c + 2 ^ (64 - c) * (b mod 2 ^ c + 2 ^ c * (b / 2 ^ c + 2 ^ (64 - c) * r))) with (a / 2 ^ c + 2 ^ (64 - c) * (b mod 2 ^ c) + (b / 2 ^ c + 2 ^ (64 - c) * r) * B) by (rewrite EB; ring).
  rewrite Z.mod_add by (pose proof B_pos; lia). apply Z.mod_small. pose proof (Z.mod_pos_bound b (2 ^ c) P1). assert (0 <= a / 2 ^ c < 2 ^ (64 - c)) by (split; [apply Z.div_pos; lia|apply Z.div_lt_upper_bound; lia]). rewrite EB. nia.
Qed.
Lemma es_shr x n w c g : (forall i, 0 <= x i < B) -> (forall i, (n <= i)%nat -> x i = 0) -> 0 <= c <= 64 -> (forall j, (j < n)%nat -> g j = x (j + w)%nat / 2 ^ c + 2 ^ (64 - c) * (x (j + w + 1)%nat mod 2 ^ c)) ->
  es g n = es x n / 2 ^ (64 * Z.of_nat w + c).
Proof.
  intros Hx Hz Hc Hg. rewrite (es_ext g (fun j => es x n / 2 ^ (64 * Z.of_nat w + c) / B ^ Z.of_nat j mod B)) by (intros j Hj; rewrite Hg, shr_digit by assumption; reflexivity).
  rewrite es_digits. apply Z.mod_small. pose proof (es_bound x n ltac:(intros; apply Hx)). assert (0 < 2 ^ (64 * Z.of_nat w + c)) by (apply Z.pow_pos_nonneg; lia). split; [apply Z.div_pos; lia|]. apply Z.le_lt_trans with (es x n); [|lia]. apply Z.div_le_upper_bound; nia.
Qed.
(** the limbs of a number times a power of the word size *)
Definition upw (x : nat -> Z) (w i : nat) : Z := if (i <? w)%nat then 0 else x (i - w)%nat.
Lemma es_upw x w k : es (upw x w) (w + k) = B ^ Z.of_nat w * es x k.
Proof.
  induction k as [|k IH].
  - rewrite Nat.add_0_r. cbn [es]. rewrite Z.mul_0_r. rewrite (es_ext _ (fun _ => 0)); [|intros j Hj; unfold upw; destruct (Nat.ltb_spec j w); [reflexivity|lia]]. clear. induction w as [|w IH]; [reflexivity|]. cbn [es]. rewrite IH. ring.
  - replace (w + S k)%nat with (S (w + k)) by lia. cbn [es]. rewrite IH. unfold upw at 1. destruct (Nat.ltb_spec (w + k) w); [lia|]. replace (w + k - w)%nat with k by lia. rewrite Nat2Z.inj_add, Z.pow_add_r by lia. ring.
Qed.
Lemma es_shl x n w c g : (forall i, 0 <= x i < B) -> (forall i, (n <= i)%nat -> x i = 0) -> 0 <= c < 64 -> (forall j, (j < n)%nat -> g j = upw x (S w) j / 2 ^ (64 - c) + 2 ^ c * (upw x w j mod 2 ^ (64 - c))) ->
  es g n = es x n * 2 ^ (64 * Z.of_nat w + c) mod B ^ Z.of_nat n.
Proof.
  intros Hx Hz Hc Hg. set (y := upw x (S w)). assert (Hy : forall i, 0 <= y i < B) by (intros i; unfold y, upw; destruct (i <? S w)%nat; [pose proof B_pos; lia|apply Hx]). assert (Zy : forall i, (S w + n <= i)%nat -> y i = 0) by (intros i Hi; unfold y, upw; destruct (Nat.ltb_spec i (S w)); [reflexivity|apply Hz; lia]).
  rewrite (es_ext g (fun j => es y (S w + n) / 2 ^ (64 * Z.of_nat 0 + (64 - c)) / B ^ Z.of_nat j mod B)).
  2:{ intros j Hj. rewrite Hg by exact Hj. rewrite (shr_digit y (S w + n) 0 (64 - c) j Hy Zy ltac:(lia)). rewrite !Nat.add_0_r. fold y. replace (64 - (64 - c)) with c by lia. replace (y (j + 1)%nat) with (upw x w j); [reflexivity|]. unfold y, upw. destruct (Nat.ltb_spec j w), (Nat.ltb_spec (j + 1) (S w)); try lia. f_equal. lia. }
  rewrite es_digits. f_equal. unfold y. rewrite es_upw. symmetry. apply Z.div_unique_exact; [apply Z.pow_nonzero; lia|]. rewrite Bpow_S. assert (E : 2 ^ 64 * 2 ^ (64 * Z.of_nat w) = 2 ^ (64 * Z.of_nat 0 + (64 - c)) * 2 ^ (64 * Z.of_nat w + c)) by (rewrite <- !Z.pow_add_r by lia; f_equal; lia).
  assert (E2 : B ^ Z.of_nat w = 2 ^ (64 * Z.of_nat w)) by (rewrite B_eq, <- Z.pow_mul_r by lia; reflexivity). rewrite E2. change B with (2 ^ 64). rewrite E. ring.
Qed.
