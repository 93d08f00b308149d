(** Number theory of the generated constants. *)
From Coq Require Import ZArith List Lia Bool Znumtheory Zpow_facts ZifyBool.
From Verif Require Import Limbs LimbsFacts Gen.
Import ListNotations.
Open Scope Z_scope.

(** ** The Euclid loop *)

Lemma egcd_inv fuel : forall a n t newt r newr,
  (exists s, t * a + s * n = r) -> (exists s, newt * a + s * n = newr) ->
  let '(t', r') := egcd_loop fuel t newt r newr in exists s, t' * a + s * n = r'.
Proof.
  induction fuel; intros a n t newt r newr H1 H2; cbn [egcd_loop]; auto.
  destruct (newr =? 0); auto.
  apply IHfuel; auto.
  destruct H1 as [s1 H1], H2 as [s2 H2].
  exists (s1 - r / newr * s2).
  set (d := r / newr). rewrite <- H1, <- H2. ring.
Qed.

Lemma egcd_gcd : forall fuel t newt r newr,
  0 <= newr < 2 ^ Z.of_nat (fuel / 2) -> newr <= r -> (1 <= fuel)%nat -> 0 < r ->
  snd (egcd_loop fuel t newt r newr) = Z.gcd r newr.
Proof.
  intros fuel. induction fuel as [fuel IH] using lt_wf_ind.
  intros t newt r newr Hb Hle Hf Hr.
  destruct fuel as [|fuel]; [lia|]. cbn [egcd_loop].
  destruct (Z.eqb_spec newr 0) as [->|Hn].
  { cbn [snd]. rewrite Z.gcd_0_r. lia. }
  assert (Hm : r - r / newr * newr = r mod newr) by (rewrite Z.mod_eq; lia).
  rewrite Hm.
  assert (Hf2 : (2 <= S fuel)%nat).
  { destruct fuel; [change (2 ^ Z.of_nat (1 / 2)) with 1 in Hb; lia|clear; lia]. }
  destruct fuel as [|fuel]; [lia|].
  assert (Hdiv : (S (S fuel) / 2 = S (fuel / 2))%nat).
  { replace (S (S fuel)) with (fuel + 1 * 2)%nat by (clear; lia). rewrite Nat.div_add by (clear; lia). apply Nat.add_1_r. }
  rewrite Hdiv in Hb.
  rewrite Nat2Z.inj_succ, Z.pow_succ_r in Hb by lia.
  cbn [egcd_loop].
  pose proof (Z.mod_pos_bound r newr ltac:(lia)) as Hmb.
  destruct (Z.eqb_spec (r mod newr) 0) as [E|E].
  { cbn [snd]. apply Z.mod_divide in E; [|lia].
    destruct E as [k ->]. rewrite Z.gcd_comm, Z.mul_comm, Z.gcd_mul_diag_l; lia. }
  assert (Hm2 : newr - newr / (r mod newr) * (r mod newr) = newr mod (r mod newr)) by (rewrite (Z.mod_eq newr (r mod newr)); lia).
  rewrite Hm2.
  pose proof (Z.mod_pos_bound newr (r mod newr) ltac:(lia)) as Hmb2.
  assert (Hhalf : 2 * (newr mod (r mod newr)) < newr).
  { assert (newr / (r mod newr) >= 1) by (apply Z.le_ge, Z.div_le_lower_bound; lia).
    pose proof (Z.div_mod newr (r mod newr) ltac:(lia)). nia. }
  destruct fuel as [|fuel'].
  { cbn in Hb. cbn [egcd_loop snd].
    assert (newr = 1) by lia. subst. rewrite Z.mod_1_r in E. lia. }
  rewrite IH; try lia.
  rewrite (Z.gcd_comm (r mod newr)), Z.gcd_mod by lia.
  rewrite Z.gcd_mod by lia. apply Z.gcd_comm.
Qed.

Lemma modInv_fuel n : 1 < n -> n <= 2 ^ Z.of_nat (Z.to_nat (2 * Z.log2 n + 4) / 2).
Proof.
  intros Hn. pose proof (Z.log2_nonneg n).
  replace (Z.to_nat (2 * Z.log2 n + 4)) with (Z.to_nat (Z.log2 n + 2) * 2)%nat by lia.
  rewrite Nat.div_mul by lia. rewrite Z2Nat.id by lia.
  pose proof (Z.log2_spec n ltac:(lia)).
  replace (Z.log2 n + 2) with (Z.succ (Z.log2 n) + 1) by lia.
  rewrite Z.pow_add_r by lia. lia.
Qed.

(** The inverse is found exactly when it exists. *)
Lemma modInv_some a n x : 1 < n -> modInv a n = Some x -> 0 <= x < n /\ (a * x) mod n = 1.
Proof.
  intros Hn. unfold modInv.
  destruct (egcd_loop _ 0 1 n (a mod n)) as [t r] eqn:E.
  destruct (Z.eqb_spec r 1) as [->|]; intros [= <-].
  split; [apply Z.mod_pos_bound; lia|].
  pose proof (egcd_inv (Z.to_nat (2 * Z.log2 n + 4)) a n 0 1 n (a mod n)) as H.
  rewrite E in H. destruct H as [s H].
  - exists 1; ring.
  - exists (- (a / n)). rewrite Z.mod_eq by lia. ring.
  - rewrite Z.mul_mod_idemp_r by lia.
    replace (a * t) with (1 + (- s) * n) by lia.
    rewrite Z.mod_add, Z.mod_small; lia.
Qed.

Lemma modInv_complete a n : 1 < n -> Z.gcd a n = 1 -> exists x, modInv a n = Some x.
Proof.
  intros Hn Hg. unfold modInv.
  destruct (egcd_loop _ 0 1 n (a mod n)) as [t r] eqn:E.
  pose proof (egcd_gcd (Z.to_nat (2 * Z.log2 n + 4)) 0 1 n (a mod n)) as H.
  rewrite E in H. cbn [snd] in H.
  pose proof (Z.mod_pos_bound a n ltac:(lia)). pose proof (Z.log2_nonneg n).
  rewrite H; try lia.
  - rewrite Z.gcd_comm, Z.gcd_mod, Z.gcd_comm by lia. rewrite Hg. cbn. eauto.
  - pose proof (modInv_fuel n Hn). lia.
Qed.

Lemma modInv_gcd a n x : 1 < n -> modInv a n = Some x -> Z.gcd a n = 1.
Proof.
  intros Hn H. apply modInv_some in H as [_ H]; auto.
  apply Zgcd_1_rel_prime. apply bezout_rel_prime.
  exists x (- (a * x / n)). rewrite Z.mod_eq in H by lia. lia.
Qed.

(** ** The identities the arithmetic relies on *)

Record zq_ok (q : Z) (P : zq) : Prop := {
  zk_odd : Z.odd q = true;
  zk_gt1 : 1 < q;
  zk_n : (1 <= p_n64 P)%nat;
  zk_lo : B ^ (Z.of_nat (p_n64 P) - 1) <= q;
  zk_hi : q < B ^ Z.of_nat (p_n64 P);
  zk_q : p_q P = to_limbs (p_n64 P) q;
  zk_rawq : p_rawq P = p_q P ++ [0];
  zk_R2 : p_R2 P = to_limbs (p_n64 P) ((B ^ Z.of_nat (p_n64 P) * B ^ Z.of_nat (p_n64 P)) mod q);
  zk_R3 : p_R3 P = to_limbs (p_n64 P)
            ((B ^ Z.of_nat (p_n64 P) * B ^ Z.of_nat (p_n64 P) * B ^ Z.of_nat (p_n64 P)) mod q);
  zk_half : p_half P = to_limbs (p_n64 P) (q / 2);
  zk_np_range : 0 < p_np P < B;
  zk_np : (q * p_np P + 1) mod B = 0;
  zk_bits : 2 ^ (p_bits P - 1) <= q < 2 ^ p_bits P;
  zk_bits_range : 64 * (Z.of_nat (p_n64 P) - 1) < p_bits P <= 64 * Z.of_nat (p_n64 P);
  zk_lbo : p_lbo P = 2 ^ (p_bits P - 64 * (Z.of_nat (p_n64 P) - 1)) - 1;
  zk_opt : p_opt P = true -> 2 * q < B ^ Z.of_nat (p_n64 P)
}.

Lemma gen_n64_pos q : 1 < q -> (1 <= gen_n64 q)%nat.
Proof.
  intros. unfold gen_n64, bitLength. pose proof (Z.log2_nonneg q).
  pose proof (Z.div_pos (Z.log2 q + 1 - 1) 64 ltac:(lia) ltac:(lia)). lia.
Qed.

Lemma gen_n64_bits q : 1 < q ->
  64 * (Z.of_nat (gen_n64 q) - 1) < bitLength q <= 64 * Z.of_nat (gen_n64 q).
Proof.
  intros. unfold gen_n64, bitLength. pose proof (Z.log2_nonneg q).
  pose proof (Z.div_pos (Z.log2 q + 1 - 1) 64 ltac:(lia) ltac:(lia)).
  rewrite Z2Nat.id by lia.
  pose proof (Z.div_mod (Z.log2 q + 1 - 1) 64). pose proof (Z.mod_pos_bound (Z.log2 q + 1 - 1) 64). lia.
Qed.

Lemma Bpow_2pow k : 0 <= k -> B ^ k = 2 ^ (64 * k).
Proof. intros. rewrite B_eq, <- Z.pow_mul_r by lia. reflexivity. Qed.

Lemma bits_spec q : 0 < q -> 2 ^ (bitLength q - 1) <= q < 2 ^ bitLength q.
Proof.
  intros. unfold bitLength. replace (Z.log2 q + 1 - 1) with (Z.log2 q) by lia.
  pose proof (Z.log2_spec q ltac:(lia)). unfold Z.succ in *. lia.
Qed.

Lemma build_ok q P : 1 < q -> build q = Some P -> zq_ok q P.
Proof.
  intros Hq HB. unfold build in HB.
  destruct (modInv q (2 ^ 64)) as [i|] eqn:Ei; [|discriminate].
  injection HB as <-. unfold build_with. cbv zeta.
  pose proof (gen_n64_pos q Hq) as Hn1.
  pose proof (gen_n64_bits q Hq) as Hbits.
  pose proof (bits_spec q ltac:(lia)) as Hbs.
  pose proof (modInv_some q (2 ^ 64) i ltac:(lia) Ei) as [Hi1 Hi2].
  assert (Hip : 0 < i).
  { destruct (Z.eq_dec i 0); [subst; rewrite Z.mul_0_r in Hi2; discriminate|lia]. }
  assert (HBn : B ^ Z.of_nat (gen_n64 q) = 2 ^ (64 * Z.of_nat (gen_n64 q))) by (apply Bpow_2pow; lia).
  constructor; cbn [p_n64 p_opt p_q p_rawq p_R2 p_R3 p_half p_np p_lbo p_bits]; unfold constantElement.
  - destruct (Z.odd q) eqn:Eo; auto.
    rewrite <- Z.negb_even in Eo. apply negb_false_iff, Z.even_spec in Eo as [k ->].
    exfalso. apply modInv_gcd in Ei; [|lia].
    assert ((2 | Z.gcd (2 * k) (2 ^ 64))) by (apply Z.gcd_greatest; [exists k; ring | exists (2 ^ 63); reflexivity]).
    rewrite Ei in H. apply Z.divide_1_r in H. lia.
  - exact Hq.
  - exact Hn1.
  - rewrite Bpow_2pow by lia.
    apply Z.le_trans with (2 ^ (bitLength q - 1)); [|lia].
    apply Z.pow_le_mono_r; lia.
  - rewrite HBn. apply Z.lt_le_trans with (2 ^ bitLength q); [lia|].
    apply Z.pow_le_mono_r; lia.
  - reflexivity.
  - reflexivity.
  - rewrite Z.shiftl_1_l. rewrite !HBn. rewrite <- Z.pow_add_r by lia. do 3 f_equal. ring.
  - rewrite Z.shiftl_1_l. rewrite !HBn. rewrite <- !Z.pow_add_r by lia. do 3 f_equal. ring.
  - rewrite Z.shiftr_div_pow2 by lia. reflexivity.
  - change B with (2 ^ 64). lia.
  - change B with (2 ^ 64).
    replace (q * (2 ^ 64 - i) + 1) with ((1 - q * i) + q * 2 ^ 64) by ring.
    rewrite Z.mod_add by lia. rewrite Zminus_mod, Hi2. reflexivity.
  - exact Hbs.
  - exact Hbits.
  - rewrite Z.shiftr_div_pow2 by lia. f_equal.
    rewrite <- Z.pow_sub_r by lia. f_equal. lia.
  - unfold gen_opt. intros Ho. apply Z.leb_le in Ho.
    rewrite Z.shiftr_div_pow2 in Ho by lia.
    change (Z.shiftr (2 ^ 64 - 1) 1 - 1) with (2 ^ 63 - 2) in Ho.
    set (k := (Z.of_nat (gen_n64 q) - 1) * 64) in *.
    assert (q < (q / 2 ^ k + 1) * 2 ^ k).
    { pose proof (Z.div_mod q (2 ^ k) ltac:(apply Z.pow_nonzero; lia)).
      pose proof (Z.mod_pos_bound q (2 ^ k) ltac:(apply Z.pow_pos_nonneg; lia)). nia. }
    rewrite HBn. replace (64 * Z.of_nat (gen_n64 q)) with (64 + k) by lia.
    rewrite Z.pow_add_r by lia.
    assert (0 < 2 ^ k) by (apply Z.pow_pos_nonneg; lia). nia.
Qed.

Lemma build_odd q : 1 < q -> Z.odd q = true -> exists P, build q = Some P.
Proof.
  intros Hq Ho. unfold build.
  destruct (modInv_complete q (2 ^ 64)) as [x ->]; [lia| |eauto].
  apply Zgcd_1_rel_prime, rel_prime_Zpower_r; [lia|].
  apply Zgcd_1_rel_prime.
  rewrite Z.gcd_comm. rewrite <- Z.gcd_mod by lia.
  rewrite Zmod_odd, Ho. reflexivity.
Qed.

(** Consequences used everywhere. *)
Section Consequences.
  Variables (q : Z) (P : zq).
  Hypothesis OK : zq_ok q P.
  Let n := p_n64 P.
  Lemma q_bound : 0 <= q < B ^ Z.of_nat n.
  Proof. destruct OK. unfold n. lia. Qed.
  Lemma q_ok : limbs_ok n (p_q P).
  Proof. rewrite (zk_q _ _ OK). apply to_limbs_ok. Qed.
  Lemma q_eval : eval (p_q P) = q.
  Proof. rewrite (zk_q _ _ OK). apply eval_to_limbs_small, q_bound. Qed.
  Lemma small_ok z : 0 <= z < q -> limbs_ok n (to_limbs n z) /\ eval (to_limbs n z) = z.
  Proof. intros. pose proof q_bound. split; [apply to_limbs_ok|apply eval_to_limbs_small; lia]. Qed.
  Lemma rawq_ok : limbs_ok (S n) (p_rawq P).
  Proof.
    rewrite (zk_rawq _ _ OK). replace (S n) with (n + 1)%nat by lia.
    apply limbs_ok_app; [apply q_ok|]. apply limbs_ok_cons; [pose proof B_pos; lia|]. split; cbn; auto.
  Qed.
  Lemma rawq_eval : eval (p_rawq P) = q.
  Proof. rewrite (zk_rawq _ _ OK), eval_app, q_eval. cbn [eval]. ring. Qed.
  Let R := B ^ Z.of_nat n.
  Lemma R2_ok : limbs_ok n (p_R2 P) /\ eval (p_R2 P) = (R * R) mod q.
  Proof. rewrite (zk_R2 _ _ OK). apply small_ok. apply Z.mod_pos_bound. destruct OK; lia. Qed.
  Lemma R3_ok : limbs_ok n (p_R3 P) /\ eval (p_R3 P) = (R * R * R) mod q.
  Proof. rewrite (zk_R3 _ _ OK). apply small_ok. apply Z.mod_pos_bound. destruct OK; lia. Qed.
  Lemma half_ok : limbs_ok n (p_half P) /\ eval (p_half P) = q / 2.
  Proof.
    rewrite (zk_half _ _ OK). apply small_ok. destruct OK.
    split; [apply Z.div_pos; lia | apply Z.div_lt; lia].
  Qed.
  Lemma q_R_coprime : Z.gcd q R = 1.
  Proof.
    apply Zgcd_1_rel_prime, rel_prime_Zpower_r; [lia|].
    apply bezout_rel_prime.
    exists (- p_np P) ((q * p_np P + 1) / B).
    pose proof (zk_np _ _ OK) as H. apply Z.mod_divide in H; [|pose proof B_pos; lia].
    destruct H as [k H]. rewrite H, Z.div_mul by (pose proof B_pos; lia). lia.
  Qed.
End Consequences.

Lemma build_bits q P : build q = Some P -> p_bits P = bitLength q.
Proof.
  unfold build. destruct (modInv q (2 ^ 64)); [|discriminate]. intros H; injection H as <-. reflexivity.
Qed.
Lemma build_n64 q P : build q = Some P -> p_n64 P = gen_n64 q /\ p_opt P = gen_opt q.
Proof.
  unfold build. destruct (modInv q (2 ^ 64)); [|discriminate]. intros H; injection H as <-. split; reflexivity.
Qed.

Lemma generator_even q : 1 < q -> Z.odd q = false -> build q = None.
Proof.
  intros H1 H2. destruct (build q) as [P|] eqn:E; [|reflexivity].
  apply build_ok in E; [|exact H1]. pose proof (zk_odd _ _ E). congruence.
Qed.
