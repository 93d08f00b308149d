(** Fermat's little theorem and Pocklington's primality criterion, used to show
    that the moduli of the examples are prime and by the FFT root search. *)
From Coq Require Import ZArith List Lia Bool Znumtheory Zpow_facts Permutation.
From Verif Require Import ModRing.
Import ListNotations.
Open Scope Z_scope.

(** ** Fermat *)
Definition zprod (l : list Z) : Z := fold_right Z.mul 1 l.
Lemma zprod_perm l l' : Permutation l l' -> zprod l = zprod l'.
Proof. induction 1 as [|x l l' _ IH|x y l|l1 l2 l3 _ IH1 _ IH2]; cbn [zprod fold_right] in *; [reflexivity| |ring|congruence]. unfold zprod in IH. rewrite IH. reflexivity. Qed.
Lemma zprod_map_mod a p l : (zprod (map (fun x => (a * x) mod p) l)) mod p = (a ^ Z.of_nat (length l) * zprod l) mod p.
Proof.
  induction l as [|x l IH]; [reflexivity|]. cbn [map zprod fold_right length]. fold (zprod (map (fun x => (a * x) mod p) l)). fold (zprod l).
  rewrite Nat2Z.inj_succ, Z.pow_succ_r by lia.
  transitivity ((a * x) * (a ^ Z.of_nat (length l) * zprod l) mod p); [|f_equal; ring].
  apply cg_mul; [apply Zmod_mod|exact IH].
Qed.

Lemma prime_cancel p c x y : prime p -> c mod p <> 0 -> (c * x) mod p = (c * y) mod p -> x mod p = y mod p.
Proof.
  intros Hp Hc E. pose proof (prime_ge_2 p Hp).
  assert (D : (p | c * (x - y))).
  { apply Z.mod_divide; [lia|]. rewrite Z.mul_sub_distr_l, Zminus_mod, E, Z.sub_diag. apply Zmod_0_l. }
  apply prime_mult in D; [|auto]. destruct D as [D|D].
  - exfalso. apply Hc. apply Z.mod_divide; [lia|auto].
  - destruct D as [k Hk]. replace x with (y + k * p) by lia. apply Z.mod_add. lia.
Qed.

Definition units (p : Z) : list Z := map Z.of_nat (seq 1 (Z.to_nat (p - 1))).
Lemma units_in p x : 2 <= p -> In x (units p) <-> 1 <= x < p.
Proof.
  intros Hp. unfold units. rewrite in_map_iff. split.
  - intros (k & <- & Hk). apply in_seq in Hk. lia.
  - intros H. exists (Z.to_nat x). split; [lia|]. apply in_seq. lia.
Qed.
Lemma units_NoDup p : NoDup (units p).
Proof. apply FinFun.Injective_map_NoDup; [|apply seq_NoDup]. intros x y H. lia. Qed.

Lemma zprod_units p l : prime p -> (forall x, In x l -> 1 <= x < p) -> zprod l mod p <> 0.
Proof.
  intros Hp. pose proof (prime_ge_2 p Hp). induction l as [|x l IH]; intros Hl.
  - cbn. rewrite Z.mod_small; lia.
  - cbn [zprod fold_right]. fold (zprod l). intros E. apply Z.mod_divide in E; [|lia].
    apply prime_mult in E; [|auto]. destruct E as [E|E].
    + apply Z.divide_pos_le in E; [|specialize (Hl x (or_introl eq_refl)); lia].
      specialize (Hl x (or_introl eq_refl)). lia.
    + apply IH; [intros; apply Hl; right; auto|]. apply Z.mod_divide; [lia|auto].
Qed.

Lemma NoDup_map_inj {A} (f : A -> Z) l : NoDup l -> (forall x y, In x l -> In y l -> f x = f y -> x = y) -> NoDup (map f l).
Proof.
  induction 1 as [|x l Hx Hl IH]; intros Hf; [constructor|]. cbn [map]. constructor.
  - intros Hi. apply in_map_iff in Hi as (y & E & Hy). apply Hx. rewrite <- (Hf y x); [exact Hy|right; auto|left; auto|auto].
  - apply IH. intros y z Hy Hz. apply Hf; right; auto.
Qed.

Theorem fermat p a : prime p -> a mod p <> 0 -> a ^ (p - 1) mod p = 1.
Proof.
  intros Hp Ha. pose proof (prime_ge_2 p Hp).
  set (l := units p). set (l' := map (fun x => (a * x) mod p) l).
  assert (Hin : forall x, In x l -> 1 <= x < p) by (intros x; apply units_in; lia).
  assert (Hperm : Permutation l' l).
  { apply NoDup_Permutation_bis.
    - unfold l'. apply NoDup_map_inj; [apply units_NoDup|].
      intros x y Hx Hy E. apply (prime_cancel p a) in E; auto.
      rewrite !Z.mod_small in E by (apply Hin in Hx, Hy; lia). exact E.
    - unfold l'. rewrite map_length. lia.
    - intros z Hz. apply in_map_iff in Hz as (x & <- & Hx). apply units_in; [lia|]. apply Hin in Hx.
      pose proof (Z.mod_pos_bound (a * x) p ltac:(lia)).
      enough ((a * x) mod p <> 0) by lia. intros E. apply Z.mod_divide in E; [|lia].
      apply prime_mult in E; [|auto]. destruct E as [E|E].
      + apply Ha. apply Z.mod_divide; [lia|auto].
      + apply Z.divide_pos_le in E; lia. }
  pose proof (zprod_map_mod a p l) as E. fold l' in E. rewrite (zprod_perm _ _ Hperm) in E.
  assert (Hlen : Z.of_nat (length l) = p - 1) by (unfold l, units; rewrite map_length, seq_length; lia).
  rewrite Hlen in E.
  replace (zprod l mod p) with ((zprod l * 1) mod p) in E by (rewrite Z.mul_1_r; reflexivity).
  rewrite (Z.mul_comm (a ^ (p - 1))) in E. apply (prime_cancel p) in E; [|auto|apply zprod_units; auto].
  rewrite <- E. apply Z.mod_small. lia.
Qed.

(** ** Pocklington *)
Lemma pow_mult_one p a x k : 1 < p -> 0 <= x -> 0 <= k -> a ^ x mod p = 1 -> a ^ (x * k) mod p = 1.
Proof.
  intros Hp Hx Hk E. rewrite Z.pow_mul_r by lia. rewrite Zpower_mod by lia. rewrite E, Z.pow_1_l by lia. apply Z.mod_small. lia.
Qed.
Lemma pow_gcd_one p a : 1 < p -> forall x, 0 <= x -> forall y, 0 <= y -> a ^ x mod p = 1 -> a ^ y mod p = 1 -> a ^ (Z.gcd x y) mod p = 1.
Proof.
  intros Hp. apply (Z_lt_induction (fun x => forall y, 0 <= y -> a ^ x mod p = 1 -> a ^ y mod p = 1 -> a ^ (Z.gcd x y) mod p = 1)).
  intros x IH y Hy Ex Ey. destruct (Z_lt_le_dec 0 x) as [L|L].
  - pose proof (Z.mod_pos_bound y x L). rewrite <- (Z.gcd_mod y x) by lia.
    apply IH; [lia|lia| |auto].
    pose proof (Z.div_mod y x ltac:(lia)) as D. pose proof (Z.div_pos y x Hy L).
    rewrite D, Z.pow_add_r in Ey by nia.
    rewrite Zmult_mod, (pow_mult_one p a x (y / x)), Z.mul_1_l, Zmod_mod in Ey by (auto; lia). exact Ey.
  - destruct (Z.eq_dec x 0) as [->|N].
    + rewrite Z.gcd_0_l, Z.abs_eq by lia. exact Ey.
    + rewrite Z.pow_neg_r, Zmod_0_l in Ex by lia. discriminate.
Qed.

Lemma prime_divisor n : 1 < n -> exists p, prime p /\ (p | n).
Proof.
  intros Hn. assert (H0 : 0 <= n) by lia. revert Hn. pattern n. apply Z_lt_induction; [|exact H0]. clear n H0.
  intros n IH Hn. destruct (prime_dec n) as [Hp|Hp]; [exists n; split; [auto|apply Z.divide_refl]|].
  destruct (not_prime_divide n Hn Hp) as (d & Hd & Hdn). destruct (IH d ltac:(lia) ltac:(lia)) as (p & Hp1 & Hp2).
  exists p. split; [auto|]. eapply Z.divide_trans; eauto.
Qed.

Lemma prime_sqrt n : 1 < n -> (forall p, prime p -> (p | n) -> n < p * p) -> prime n.
Proof.
  intros Hn H. destruct (prime_dec n) as [|Hp]; [auto|]. exfalso.
  destruct (not_prime_divide n Hn Hp) as (d & Hd & [e He]).
  assert (1 < e < n) by nia.
  destruct (prime_divisor d ltac:(lia)) as (p & Hp1 & Hp2). destruct (prime_divisor e ltac:(lia)) as (p' & Hp3 & Hp4).
  assert (n < p * p) by (apply H; auto; apply Z.divide_trans with d; auto; exists e; lia).
  assert (n < p' * p') by (apply H; auto; apply Z.divide_trans with e; auto; exists d; lia).
  apply Z.divide_pos_le in Hp2, Hp4; [|lia|lia]. pose proof (prime_ge_2 p Hp1). pose proof (prime_ge_2 p' Hp3).
  assert (p * p <= d * d) by (apply Z.mul_le_mono_nonneg; lia). assert (p' * p' <= e * e) by (apply Z.mul_le_mono_nonneg; lia).
  assert (e < d) by nia. assert (d < e) by nia. lia.
Qed.

(** One certificate line (r, e, a): r prime, r^e | n-1, a a witness. *)
Definition poc_line (n : Z) (c : Z * Z * Z) : bool :=
  let '(r, e, a) := c in
  (0 <? e) && ((n - 1) mod (r ^ e) =? 0) && (Zpow_mod a (n - 1) n =? 1) &&
  (Z.gcd (Zpow_mod a ((n - 1) / r) n - 1) n =? 1).
Definition poc_f (l : list (Z * Z * Z)) : Z := zprod (map (fun '(r, e, a) => r ^ e) l).
Fixpoint distinct (l : list Z) : bool :=
  match l with [] => true | x :: t => negb (existsb (Z.eqb x) t) && distinct t end.
Definition poc (n : Z) (l : list (Z * Z * Z)) : bool :=
  (1 <? n) && forallb (poc_line n) l && distinct (map (fun c => fst (fst c)) l) && (n <? (poc_f l + 1) * (poc_f l + 1)).

Lemma gcd_of_prime_factor n a x p : prime p -> 1 < n -> (p | n) -> a ^ x mod p = 1 ->
  Z.gcd (Zpow_mod a x n - 1) n = 1 -> False.
Proof.
  intros Hp Hn Hd E G. pose proof (prime_ge_2 p Hp).
  assert (D : (p | Zpow_mod a x n - 1)).
  { rewrite Zpow_mod_correct by lia. apply Z.mod_divide; [lia|].
    rewrite Zminus_mod. destruct Hd as [k Hk].
    replace ((a ^ x mod n) mod p) with (a ^ x mod p). 2:{ rewrite (Z.mod_eq (a ^ x) n) by lia. rewrite Hk.
      replace (a ^ x - k * p * (a ^ x / (k * p))) with (a ^ x + (- (k * (a ^ x / (k * p)))) * p) by ring. rewrite Z.mod_add; [auto|lia]. }
    rewrite E. replace (1 mod p) with 1 by (rewrite Z.mod_small; lia). apply Zmod_0_l. }
  pose proof (Z.gcd_greatest _ _ _ D Hd) as G'. rewrite G in G'. apply Z.divide_pos_le in G'; lia.
Qed.

Lemma poc_line_div n c p : 1 < n -> prime (fst (fst c)) -> poc_line n c = true -> prime p -> (p | n) ->
  ((fst (fst c)) ^ (snd (fst c)) | p - 1).
Proof.
  intros Hn Hr H Hp Hd. destruct c as [[r e] a]. cbn [fst snd] in *. unfold poc_line in H.
  rewrite !andb_true_iff, Z.ltb_lt, !Z.eqb_eq in H. destruct H as [[[He H1] H2] H3].
  pose proof (prime_ge_2 p Hp). pose proof (prime_ge_2 r Hr).
  assert (Hre : 0 < r ^ e) by (apply Z.pow_pos_nonneg; lia).
  rewrite Zpow_mod_correct in H2 by lia.
  assert (Ea : a ^ (n - 1) mod p = 1).
  { destruct Hd as [k Hk]. replace (a ^ (n - 1)) with (1 + n * (a ^ (n - 1) / n)).
    2:{ pose proof (Z.div_mod (a ^ (n - 1)) n ltac:(lia)). lia. }
    rewrite Hk at 1. replace (1 + k * p * (a ^ (n - 1) / n)) with (1 + (k * (a ^ (n - 1) / n)) * p) by ring.
    rewrite Z.mod_add, Z.mod_small; lia. }
  assert (Ha : a mod p <> 0).
  { intros E. rewrite Zpower_mod, E, Z.pow_0_l, Zmod_0_l in Ea by lia. discriminate. }
  pose proof (fermat p a Hp Ha) as Ef.
  set (g := Z.gcd (p - 1) (n - 1)).
  assert (Eg : a ^ g mod p = 1) by (apply pow_gcd_one; auto; lia).
  assert (Hg : (r ^ e | g)).
  { destruct (Z.gcd_divide_r (p - 1) (n - 1)) as [h Hh]. fold g in Hh.
    assert (0 <= g) by apply Z.gcd_nonneg. assert (0 < g) by (destruct (Z.eq_dec g 0); nia). assert (0 < h) by nia.
    destruct (Zdivide_dec r h) as [[k Hk]|Hrh].
    - exfalso. apply (gcd_of_prime_factor n a ((n - 1) / r) p); auto.
      rewrite Hh, Hk. replace (k * r * g) with ((g * k) * r) by ring. rewrite Z.div_mul by lia.
      apply pow_mult_one; auto; nia.
    - apply Gauss with h.
      + rewrite <- Hh. apply Z.mod_divide; [lia|auto].
      + apply rel_prime_sym. apply rel_prime_Zpower_r; [lia|]. apply rel_prime_sym. apply prime_rel_prime; auto. }
  eapply Z.divide_trans; [exact Hg|apply Z.gcd_divide_l].
Qed.

Lemma distinct_coprime n r e l : prime r -> 0 <= e -> Forall (fun c => prime (fst (fst c))) l ->
  forallb (poc_line n) l = true -> existsb (Z.eqb r) (map (fun c => fst (fst c)) l) = false -> rel_prime (r ^ e) (poc_f l).
Proof.
  intros Hr He. induction l as [|[[r' e'] a'] l IH]; intros Hl Hf Hx.
  - unfold poc_f, zprod. cbn. apply rel_prime_sym, rel_prime_1.
  - inversion Hl as [|? ? H1 H2]; subst. cbn [map existsb fst snd forallb] in *.
    apply orb_false_iff in Hx as [Hx1 Hx2]. apply andb_true_iff in Hf as [Hf1 Hf2].
    unfold poc_line in Hf1. rewrite !andb_true_iff, Z.ltb_lt in Hf1. destruct Hf1 as [[[He' _] _] _].
    unfold poc_f. cbn [map zprod fold_right]. fold (zprod (map (fun '(r, e, a) => r ^ e) l)). fold (poc_f l).
    apply rel_prime_mult; [|apply IH; auto].
    apply rel_prime_Zpower_r; [lia|]. apply rel_prime_sym, rel_prime_Zpower_r; [lia|].
    apply Z.eqb_neq in Hx1. pose proof (prime_ge_2 r' H1). pose proof (prime_ge_2 r Hr).
    apply prime_rel_prime; [auto|]. intros D. apply prime_div_prime in D; auto.
Qed.

Theorem pocklington n l : Forall (fun c => prime (fst (fst c))) l -> poc n l = true -> prime n.
Proof.
  intros Hl H. unfold poc in H. rewrite !andb_true_iff, !Z.ltb_lt in H. destruct H as [[[Hn Hf] Hd] Hs].
  apply prime_sqrt; [auto|]. intros p Hp Hpn. pose proof (prime_ge_2 p Hp).
  assert (D : (poc_f l | p - 1) /\ 0 < poc_f l).
  { clear Hs. induction l as [|[[r e] a] l IH].
    - unfold poc_f, zprod. cbn. split; [apply Z.divide_1_l|lia].
    - inversion Hl as [|? ? H1 H2]; subst. cbn [map distinct fst snd forallb] in *.
      apply andb_true_iff in Hf as [Hf1 Hf2]. apply andb_true_iff in Hd as [Hd1 Hd2]. apply negb_true_iff in Hd1.
      destruct (IH H2 Hf2 Hd2) as [D1 D2].
      unfold poc_f. cbn [map zprod fold_right]. fold (zprod (map (fun '(r, e, a) => r ^ e) l)). fold (poc_f l).
      pose proof (poc_line_div n (r, e, a) p Hn H1 Hf1 Hp Hpn) as D3. cbn [fst snd] in *.
      assert (He : 0 <= e). { unfold poc_line in Hf1. rewrite !andb_true_iff, Z.ltb_lt in Hf1. lia. }
      pose proof (prime_ge_2 r H1). assert (0 < r ^ e) by (apply Z.pow_pos_nonneg; lia). split; [|nia].
      pose proof (distinct_coprime n r e l H1 He H2 Hf2 Hd1) as Hc.
      destruct D3 as [k Hk]. assert (D4 : (poc_f l | k)).
      { apply Gauss with (r ^ e); [|apply rel_prime_sym; auto]. rewrite Z.mul_comm, <- Hk. exact D1. }
      destruct D4 as [k' Hk']. exists k'. lia. }
  destruct D as [D1 D2]. apply Z.divide_pos_le in D1; [|lia]. nia.
Qed.

(** Small primes by trial division. *)
Fixpoint trial (fuel : nat) (d n : Z) : bool :=
  match fuel with
  | O => false
  | S k => if n <? d * d then true else if n mod d =? 0 then false else trial k (d + 1) n
  end.
Lemma trial_ok fuel : forall d n, 2 <= d -> (forall x, 2 <= x < d -> ~ (x | n)) -> trial fuel d n = true ->
  forall p, prime p -> (p | n) -> n < p * p.
Proof.
  induction fuel as [|k IH]; intros d n Hd Hx H p Hp Hpn; [discriminate|]. cbn [trial] in H.
  pose proof (prime_ge_2 p Hp).
  destruct (Z.ltb_spec n (d * d)).
  - destruct (Z_lt_le_dec p d) as [L|L]; [exfalso; apply (Hx p); auto; lia|nia].
  - destruct (Z.eqb_spec (n mod d) 0) as [|E]; [discriminate|].
    apply (IH (d + 1) n); auto; [lia|]. intros x Hx1 Hx2. destruct (Z.eq_dec x d) as [->|].
    + apply E. apply Z.mod_divide; [lia|auto].
    + apply (Hx x); auto; lia.
Qed.
Theorem trial_prime n : 1 < n -> trial 2000 2 n = true -> prime n.
Proof. intros Hn H. apply prime_sqrt; [auto|]. intros p. apply (trial_ok 2000 2 n); auto; [lia|]. intros; lia. Qed.
