(** Sums, powers, roots of unity; the radix-2 recursion. *)
From Coq Require Import ZArith List Bool Lia Ring Arith.
From Verif Require Import Multiexp MultiexpFacts MsmFacts Tower Par ParFacts Threads ThreadsFacts Fft FftFacts.
Import ListNotations.
Open Scope nat_scope.
Ltac Zify.zify_post_hook ::= idtac.

Section Alg.
Variable K : rng.
Add Ring Kr : (r_th K).
Notation "x +k y" := (radd x y) (at level 50, left associativity). Notation "x *k y" := (rmul x y) (at level 40, left associativity).
Notation "x -k y" := (rsub x y) (at level 50, left associativity). Notation "-k x" := (ropp x) (at level 35, right associativity).
Fixpoint kpow (x : K) (n : nat) : K := match n with O => r1 | S n => (x *k kpow x n) end.
Fixpoint ksum (n : nat) (f : nat -> K) : K := match n with O => r0 | S n => (ksum n f +k f n) end.
Fixpoint knat (n : nat) : K := match n with O => r0 | S n => (knat n +k r1) end.
Lemma kpow_add x a b : kpow x (a + b) = (kpow x a *k kpow x b).
Proof. induction a as [|a IH]; cbn; [ring|]. rewrite IH. ring. Qed.
Lemma kpow_mul x a b : kpow x (a * b) = kpow (kpow x a) b.
Proof. induction b as [|b IH]; [rewrite Nat.mul_0_r; reflexivity|]. rewrite Nat.mul_succ_r, Nat.add_comm, kpow_add, IH. reflexivity. Qed.
Lemma kpow_1 n : kpow r1 n = r1. Proof. induction n as [|n IH]; cbn; [reflexivity|]. rewrite IH. ring. Qed.
Lemma kpow_m1 n : kpow (-k r1) n = if Nat.even n then r1 else (-k r1).
Proof. induction n as [|n IH]; [reflexivity|]. cbn [kpow]. rewrite IH, Nat.even_succ, <- Nat.negb_even. destruct (Nat.even n); cbn [negb]; ring. Qed.
Lemma kpow_base x y n : kpow (x *k y) n = (kpow x n *k kpow y n).
Proof. induction n as [|n IH]; cbn; [ring|]. rewrite IH. ring. Qed.
Lemma ksum_ext n f g : (forall i, i < n -> f i = g i) -> ksum n f = ksum n g.
Proof. induction n as [|n IH]; intros H; [reflexivity|]. cbn. rewrite IH, H by auto. reflexivity. Qed.
Lemma ksum_0 n : ksum n (fun _ => r0) = r0. Proof. induction n as [|n IH]; cbn; [reflexivity|]. rewrite IH. ring. Qed.
Lemma ksum_add n f g : ksum n (fun i => f i +k g i) = (ksum n f +k ksum n g).
Proof. induction n as [|n IH]; cbn; [ring|]. rewrite IH. ring. Qed.
Lemma ksum_mul n c f : ksum n (fun i => c *k f i) = (c *k ksum n f).
Proof. induction n as [|n IH]; cbn; [ring|]. rewrite IH. ring. Qed.
Lemma ksum_swap n k f : ksum n (fun i => ksum k (fun j => f i j)) = ksum k (fun j => ksum n (fun i => f i j)).
Proof. induction n as [|n IH]; cbn; [symmetry; apply ksum_0|]. rewrite IH, <- ksum_add. reflexivity. Qed.
Lemma ksum_split h f : ksum (2 * h) f = (ksum h (fun t => f (2 * t)) +k ksum h (fun t => f (2 * t + 1))).
Proof. induction h as [|h IH]; [cbn; ring|]. replace (2 * S h) with (S (S (2 * h))) by lia. cbn [ksum]. rewrite IH. replace (2 * h + 1) with (S (2 * h)) by lia. ring. Qed.
Lemma ksum_const n c : ksum n (fun _ => c) = (knat n *k c).
Proof. induction n as [|n IH]; cbn; [ring|]. rewrite IH. ring. Qed.
Lemma ksum_delta n i f : i < n -> (forall j, j < n -> j <> i -> f j = r0) -> ksum n f = f i.
Proof.
  induction n as [|n IH]; intros Hi H; [lia|]. cbn. destruct (Nat.eq_dec i n) as [->|N].
  - rewrite (ksum_ext n f (fun _ => r0)), ksum_0; [ring|]. intros j Hj. apply H; lia.
  - rewrite IH by (try lia; intros; apply H; lia). rewrite (H n) by lia. ring.
Qed.
Lemma geom x n : ((x -k r1) *k ksum n (fun i => kpow x i) = kpow x n -k r1).
Proof. induction n as [|n IH]; cbn; [ring|]. transitivity ((x -k r1) *k ksum n (fun i => kpow x i) +k (x -k r1) *k kpow x n); [ring|]. rewrite IH. ring. Qed.

(** the transform *)
Definition dft (w : K) (n : nat) (a : nat -> K) (k : nat) : K := ksum n (fun j => a j *k kpow w (j * k)).

(** w is a root of unity of order 2^p exactly *)
Section Ortho.
Hypothesis HF : is_field K.
Hypothesis two : (r1 +k r1) <> (r0 : K).
Lemma no_zero_div (x y : K) : (x *k y) = r0 -> x = r0 \/ y = r0.
Proof.
  intros H. destruct (reqb x r0) eqn:E; [left; apply reqb_ok, E|right]. assert (Nx : x <> r0) by (intros Q; apply reqb_ok in Q; congruence).
  transitivity (rinv x *k (x *k y)); [|rewrite H; ring]. replace (rinv x *k (x *k y)) with ((x *k rinv x) *k y) by ring. rewrite (proj2 HF x Nx). ring.
Qed.
Lemma m1_neq : (-k r1) <> (r1 : K).
Proof. intros E. apply two. rewrite <- E at 1. ring. Qed.
Lemma split2 d : 0 < d -> exists e o, d = 2 ^ e * (2 * o + 1).
Proof.
  induction d as [d IH] using lt_wf_ind. intros Hd. destruct (Nat.even d) eqn:Ev.
  - apply Nat.even_spec in Ev. destruct Ev as [k ->]. destruct (IH k) as (e & o & E); [lia|lia|]. exists (S e), o. rewrite Nat.pow_succ_r'. lia.
  - assert (Od : Nat.odd d = true) by (rewrite <- Nat.negb_even, Ev; reflexivity). apply Nat.odd_spec in Od. destruct Od as [k ->]. exists 0, k. cbn. lia.
Qed.
Lemma order v p d : kpow v (2 ^ p) = (-k r1) -> 0 < d < 2 ^ S p -> kpow v d <> r1.
Proof.
  intros H Hd E. destruct (split2 d) as (e & o & Q); [lia|]. assert (He : e <= p).
  { destruct (Nat.le_gt_cases e p) as [L|L]; [exact L|]. assert (2 ^ S p <= 2 ^ e) by (apply Nat.pow_le_mono_r; lia). nia. }
  assert (E2 : kpow v (d * 2 ^ (p - e)) = r1) by (rewrite kpow_mul, E; apply kpow_1).
  replace (d * 2 ^ (p - e)) with (2 ^ p * (2 * o + 1)) in E2.
  - rewrite kpow_mul, H, kpow_m1 in E2. replace (Nat.even (2 * o + 1)) with false in E2; [exact (m1_neq E2)|]. rewrite Nat.add_1_r, Nat.even_succ, Nat.odd_mul. reflexivity.
  - rewrite Q. replace p with (e + (p - e)) at 1 by lia. rewrite Nat.pow_add_r. lia.
Qed.
(** sum over k of v^(jk) (v^-1)^(ik), the inverse power written as v^((n-i)k) *)
Lemma ortho v p i j : kpow v (2 ^ p) = (-k r1) -> let n := 2 ^ S p in i < n -> j < n ->
  ksum n (fun k => kpow v (j * k) *k kpow v (k * (n - i))) = if Nat.eq_dec i j then knat n else r0.
Proof.
  intros H n Hi Hj. assert (V1 : kpow v n = r1).
  { unfold n. rewrite Nat.pow_succ_r', Nat.mul_comm, kpow_mul, H. cbn. ring. }
  rewrite (ksum_ext n _ (fun k => kpow (kpow v (j + (n - i))) k)).
  2:{ intros k _. rewrite <- kpow_add, <- kpow_mul. f_equal. lia. }
  destruct (Nat.eq_dec i j) as [->|N].
  - replace (j + (n - j)) with n by lia. rewrite V1. rewrite (ksum_ext n _ (fun _ => r1)) by (intros; apply kpow_1). rewrite ksum_const. ring.
  - set (x := kpow v (j + (n - i))). assert (G := geom x n).
    assert (X1 : kpow x n = r1) by (unfold x; rewrite <- kpow_mul, Nat.mul_comm, kpow_mul, V1; apply kpow_1).
    rewrite X1 in G. replace (r1 -k r1) with (r0 : K) in G by ring. apply no_zero_div in G. destruct G as [G|G]; [|exact G]. exfalso.
    assert (Gx : x = r1). { transitivity ((x -k r1) +k r1); [ring|]. rewrite G. ring. }
    unfold x in Gx. destruct (Nat.lt_ge_cases j i) as [L|L].
    + apply (order v p (j + (n - i)) H); [unfold n in *; lia|exact Gx].
    + replace (j + (n - i)) with (n + (j - i)) in Gx by lia. rewrite kpow_add, V1 in Gx. replace (r1 *k kpow v (j - i)) with (kpow v (j - i)) in Gx by ring.
      apply (order v p (j - i) H); [unfold n in *; lia|exact Gx].
Qed.
(** the inverse transform, in the order in which ifft produces it *)
Definition idft (v : K) (n : nat) (c : K) (a : nat -> K) (k : nat) : K := (dft v n a (if Nat.eq_dec k 0 then 0 else n - k) *k c).
Lemma dft_0n v n a k : kpow v n = r1 -> k <= n -> dft v n a (if Nat.eq_dec k 0 then 0 else n - k) = dft v n a (n - k).
Proof.
  intros H Hk. destruct (Nat.eq_dec k 0) as [->|]; [|reflexivity]. unfold dft. apply ksum_ext. intros j _. f_equal. rewrite Nat.sub_0_r, Nat.mul_0_r, Nat.mul_comm, kpow_mul, H, kpow_1. reflexivity.
Qed.
Lemma root_n v p : kpow v (2 ^ p) = (-k r1) -> kpow v (2 ^ S p) = r1.
Proof. intros H. rewrite Nat.pow_succ_r', Nat.mul_comm, kpow_mul, H. cbn. ring. Qed.
Lemma idft_dft v p c a i : kpow v (2 ^ p) = (-k r1) -> let n := 2 ^ S p in (knat n *k c) = r1 -> i < n -> idft v n c (dft v n a) i = a i.
Proof.
  intros H n Hc Hi. unfold idft. rewrite dft_0n by (try apply (root_n _ _ H); lia). unfold dft.
  rewrite (ksum_ext n _ (fun k => ksum n (fun j => a j *k (kpow v (j * k) *k kpow v (k * (n - i)))))).
  2:{ intros k _. rewrite (ksum_ext n (fun j => a j *k (kpow v (j * k) *k kpow v (k * (n - i)))) (fun j => kpow v (k * (n - i)) *k (a j *k kpow v (j * k)))) by (intros; ring). rewrite ksum_mul. ring. }
  rewrite ksum_swap. rewrite (ksum_delta n i).
  - rewrite ksum_mul. pose proof (ortho v p i i H Hi Hi) as OR. fold n in OR. rewrite OR. destruct (Nat.eq_dec i i); [|lia]. fold n. transitivity (a i *k (knat n *k c)); [ring|]. rewrite Hc. ring.
  - exact Hi.
  - intros j Hj N. rewrite ksum_mul. pose proof (ortho v p i j H Hi Hj) as OR. fold n in OR. rewrite OR. destruct (Nat.eq_dec i j); [congruence|]. ring.
Qed.
Lemma dft_idft v p c a i : kpow v (2 ^ p) = (-k r1) -> let n := 2 ^ S p in (knat n *k c) = r1 -> i < n -> dft v n (idft v n c a) i = a i.
Proof.
  intros H n Hc Hi. unfold dft at 1.
  rewrite (ksum_ext n _ (fun k => ksum n (fun j => (c *k a j) *k (kpow v (k * i) *k kpow v (j * (n - k)))))).
  2:{ intros k Hk. unfold idft. rewrite dft_0n by (try apply (root_n _ _ H); lia). unfold dft.
      rewrite (ksum_ext n (fun j => (c *k a j) *k (kpow v (k * i) *k kpow v (j * (n - k)))) (fun j => (c *k kpow v (k * i)) *k (a j *k kpow v (j * (n - k))))) by (intros; ring). rewrite ksum_mul. ring. }
  rewrite ksum_swap.
  assert (E : forall j, j < n -> ksum n (fun k => (c *k a j) *k (kpow v (k * i) *k kpow v (j * (n - k)))) = (c *k a j *k if Nat.eq_dec j i then knat n else r0)).
  { intros j Hj. rewrite ksum_mul. f_equal. pose proof (ortho v p j i H Hj Hi) as OR. fold n in OR. rewrite <- OR. apply ksum_ext. intros k Hk. assert (V1 : kpow v n = r1) by apply (root_n _ _ H).
    rewrite (Nat.mul_comm k i). f_equal.
    (* v^(j(n-k)) = v^(k(n-j)) *)
    assert (X : kpow v (j * (n - k) + j * k) = kpow v (k * (n - j) + j * k)).
    { replace (j * (n - k) + j * k) with (n * j) by nia. replace (k * (n - j) + j * k) with (n * k) by nia. rewrite !kpow_mul, V1, !kpow_1. reflexivity. }
    rewrite !kpow_add in X. assert (I : (kpow v (j * k) *k kpow v (n * (j * k) - j * k) = r1)).
    { rewrite <- kpow_add. replace (j * k + (n * (j * k) - j * k)) with (n * (j * k)) by nia. rewrite kpow_mul, V1. apply kpow_1. }
    transitivity (kpow v (j * (n - k)) *k (kpow v (j * k) *k kpow v (n * (j * k) - j * k))); [rewrite I; ring|].
    transitivity ((kpow v (j * (n - k)) *k kpow v (j * k)) *k kpow v (n * (j * k) - j * k)); [ring|]. rewrite X. transitivity (kpow v (k * (n - j)) *k (kpow v (j * k) *k kpow v (n * (j * k) - j * k))); [ring|]. rewrite I. ring. }
  rewrite (ksum_ext n _ (fun j => c *k a j *k if Nat.eq_dec j i then knat n else r0)) by exact E.
  rewrite (ksum_delta n i); [|exact Hi|].
  - destruct (Nat.eq_dec i i); [|lia]. transitivity (a i *k (knat n *k c)); [ring|]. rewrite Hc. ring.
  - intros j Hj N. destruct (Nat.eq_dec j i); [congruence|]. ring.
Qed.
End Ortho.
End Alg.
