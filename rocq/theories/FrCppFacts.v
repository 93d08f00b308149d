From Coq Require Import ZArith List Lia Bool Znumtheory Zpow_facts ZifyBool.
From Verif Require Import Limbs LimbsFacts Gen GenFacts Raw Spec MontFacts RawFacts Fr FrSpec ModRing FrFacts FrProgFacts
  Bytes BytesFacts Text TextFacts FrCpp FrCppSpec.
Import ListNotations.
Open Scope Z_scope.

Lemma export_zero n v : 0 <= v < B ^ Z.of_nat n -> forall old, length old = n ->
  (forall k, (k < n)%nat -> get old k = 0) -> mpz_export n v old = Some (to_limbs n v).
Proof.
  intros Hv old Hl H0. unfold mpz_export. rewrite Z.abs_eq by lia.
  set (cnt := if v =? 0 then 0%nat else Z.to_nat (Z.log2 v / 64 + 1)).
  assert (Hc : (cnt <= n)%nat /\ v < B ^ Z.of_nat cnt).
  { unfold cnt. destruct (Z.eqb_spec v 0) as [->|N]; [cbn; lia|].
    pose proof (Z.log2_spec v ltac:(lia)) as [L1 L2]. pose proof (Z.log2_nonneg v).
    pose proof (Z.div_mod (Z.log2 v) 64 ltac:(lia)). pose proof (Z.mod_pos_bound (Z.log2 v) 64 ltac:(lia)).
    pose proof (Z.div_pos (Z.log2 v) 64 ltac:(lia) ltac:(lia)).
    split.
    - assert (Z.log2 v < 64 * Z.of_nat n).
      { apply Z.log2_lt_pow2; [lia|]. replace (2 ^ (64 * Z.of_nat n)) with (B ^ Z.of_nat n); [lia|].
        rewrite B_eq, Z.pow_mul_r by lia. reflexivity. }
      lia.
    - rewrite Z2Nat.id by lia. rewrite B_eq, <- Z.pow_mul_r by lia.
      eapply Z.lt_le_trans; [exact L2|]. apply Z.pow_le_mono_r; lia. }
  destruct Hc as [C1 C2]. replace (n <? cnt)%nat with false by lia. f_equal.
  replace (skipn cnt old) with (repeat 0 (n - cnt)).
  2:{ apply nth_ext_get; [rewrite repeat_length, skipn_length; lia|]. intros i Hi. rewrite repeat_length in Hi.
      rewrite get_repeat0, get_skipn. symmetry. apply H0. lia. }
  apply eval_inj with n.
  - replace n with (cnt + (n - cnt))%nat at 1 by lia. apply limbs_ok_app; [apply to_limbs_ok|apply limbs_ok_repeat0].
  - apply to_limbs_ok.
  - rewrite eval_app, eval_repeat0, eval_to_limbs_small, eval_to_limbs_small; lia.
Qed.
Lemma export_zero' n v : 0 <= v < B ^ Z.of_nat n -> mpz_export n v (repeat 0 n) = Some (to_limbs n v).
Proof. intros. apply export_zero; auto; [apply repeat_length|]. intros; apply get_repeat0. Qed.
Lemma export_some n v old : 0 <= v < B ^ Z.of_nat n -> exists l, mpz_export n v old = Some l.
Proof.
  intros Hv. pose proof (export_zero' n v Hv) as H. unfold mpz_export in *.
  destruct (_ <? _)%nat; [discriminate|eauto].
Qed.

Section Cpp.
Variables (q : Z) (P : zq).
Hypothesis OK : zq_ok q P.
Notation n := (p_n64 P).
Notation R := (Rad n).
Local Definition q1 : 1 < q := zk_gt1 _ _ OK.
Local Ltac facts := pose proof q1; pose proof B_gt1.

Lemma q_lt_R : q < B ^ Z.of_nat n. Proof. apply (zk_hi _ _ OK). Qed.
Lemma q_eval : eval (p_q P) = q.
Proof. rewrite (zk_q _ _ OK). apply eval_to_limbs_small. pose proof q_lt_R. facts. lia. Qed.

(** ** RawFr *)
Notation val := (rval q n).
Lemma rval_intro m p z x : holds q n m p z -> z mod q = (x * R) mod q -> val m p (x mod q).
Proof.
  intros H E. facts. split; [apply Z.mod_pos_bound; lia|].
  replace ((x mod q * R) mod q) with z; [exact H|]. destruct H as (_ & _ & H).
  rewrite <- (Z.mod_small z q H), E. modring.
Qed.
Lemma rval_limbs m p x : val m p x -> limbs_ok n (m p). Proof. intros [_ H]. apply H. Qed.
Lemma rval_eval m p x : val m p x -> eval (m p) = (x * R) mod q. Proof. intros [_ H]. apply H. Qed.

Lemma Raw_add_spec r a b m x y : val m a x -> val m b y ->
  val (Raw_add P r a b m) r ((x + y) mod q) /\ only r m (Raw_add P r a b m).
Proof.
  intros [_ H1] [_ H2]. destruct (rawAdd_spec q P OK r a b m _ _ H1 H2) as [H3 H4]. split; [|exact H4].
  eapply rval_intro; [exact H3|]. modring.
Qed.
Lemma Raw_sub_spec r a b m x y : val m a x -> val m b y ->
  val (Raw_sub P r a b m) r ((x - y) mod q) /\ only r m (Raw_sub P r a b m).
Proof.
  intros [_ H1] [_ H2]. destruct (rawSub_spec q P OK r a b m _ _ H1 H2) as [H3 H4]. split; [|exact H4].
  eapply rval_intro; [exact H3|]. modring.
Qed.
Lemma Raw_neg_spec r a m x : val m a x ->
  val (Raw_neg P r a m) r ((- x) mod q) /\ only r m (Raw_neg P r a m).
Proof.
  intros [_ H1]. destruct (rawNeg_spec q P OK r a m _ H1) as [H3 H4]. split; [|exact H4].
  eapply rval_intro; [exact H3|]. modring.
Qed.
Lemma Raw_mul_spec r a b m x y : val m a x -> val m b y ->
  val (Raw_mul P r a b m) r ((x * y) mod q) /\ only r m (Raw_mul P r a b m).
Proof.
  intros [_ H1] [_ H2]. destruct (rawMMul_spec q P OK r a b m _ (proj1 H1) H2) as (z & H3 & E & H4). split; [|exact H4].
  eapply rval_intro; [exact H3|]. apply (Rad_cancel q P OK). rewrite E, (proj1 (proj2 H1)). modring.
Qed.
Lemma Raw_square_spec r a m x : val m a x ->
  val (Raw_square P r a m) r ((x * x) mod q) /\ only r m (Raw_square P r a m).
Proof. intros H. apply Raw_mul_spec; auto. Qed.
Lemma Raw_copy_spec r a m x : val m a x -> val (Raw_copy r a m) r x /\ only r m (Raw_copy r a m).
Proof.
  intros [Hx H]. split; [|apply only_upd]. split; [auto|]. unfold holds, Raw_copy, rawCopy. rewrite upd_eq. exact H.
Qed.
Lemma Raw_toMpz_spec a m x : val m a x -> Raw_toMpz P a m = x.
Proof.
  intros [Hx H]. destruct (rawFromMontgomery_spec q P OK (U 0) a m (proj1 H)) as (z & (_ & E1 & Hz) & E & _).
  unfold rawFromMontgomery in E1. rewrite upd_eq in E1. unfold Raw_toMpz. rewrite E1.
  rewrite (proj1 (proj2 H)) in E. rewrite Zmod_mod in E. apply (Rad_cancel q P OK) in E.
  rewrite !Z.mod_small in E by lia. exact E.
Qed.
Lemma Raw_inj a b m x y : val m a x -> val m b y -> eval (m a) = eval (m b) <-> x = y.
Proof.
  intros H1 H2. rewrite (rval_eval _ _ _ H1), (rval_eval _ _ _ H2). split; [|congruence].
  intros E. apply (Rad_cancel q P OK) in E. destruct H1, H2. rewrite !Z.mod_small in E by lia. exact E.
Qed.
Lemma Raw_eq_spec a b m x y : val m a x -> val m b y -> Raw_eq a b m = Z.b2z (x =? y).
Proof.
  intros H1 H2. unfold Raw_eq. rewrite rawIsEq_spec. pose proof (Raw_inj a b m x y H1 H2).
  destruct (Z.eqb_spec (eval (m a)) (eval (m b))), (Z.eqb_spec x y); cbn; tauto.
Qed.
Lemma Raw_isZero_spec a m x : val m a x -> Raw_isZero a m = Z.b2z (x =? 0).
Proof.
  intros H1. unfold Raw_isZero. rewrite rawIsZero_spec, (rval_eval _ _ _ H1). destruct H1 as [Hx _].
  destruct (Z.eqb_spec x 0) as [->|N]; cbn [Z.b2z]; [rewrite Z.mul_0_l, Zmod_0_l; reflexivity|].
  destruct (Z.eqb_spec ((x * R) mod q) 0) as [E|]; [|reflexivity]. exfalso. apply N.
  replace 0 with ((0 * R) mod q) in E by (rewrite Z.mul_0_l; apply Zmod_0_l). apply (Rad_cancel q P OK) in E.
  rewrite !Z.mod_small in E by lia. exact E.
Qed.

Lemma Rad_B : R = B ^ Z.of_nat n. Proof. apply Rad_R. Qed.
Lemma Raw_fromMpz_spec r v m : 0 <= v < R -> exists m', Raw_fromMpz P r v m = Some m' /\
  val m' r (v mod q) /\ only r m m'.
Proof.
  intros Hv. rewrite Rad_B in Hv. unfold Raw_fromMpz. rewrite export_zero' by auto. eexists. split; [reflexivity|].
  set (m1 := upd m r (to_limbs n v)).
  destruct (rawToMontgomery_spec q P OK r r m1) as [H1 H2]. { unfold m1. rewrite upd_eq. apply to_limbs_ok. }
  split.
  - eapply rval_intro; [exact H1|]. unfold m1. rewrite upd_eq, eval_to_limbs_small by auto. modring.
  - eapply only_trans; [apply only_upd|exact H2].
Qed.
Lemma mod_lt_R x : 0 <= x mod q < R.
Proof. facts. pose proof q_lt_R. rewrite Rad_B. pose proof (Z.mod_pos_bound x q ltac:(lia)). lia. Qed.
Lemma B_le_R : B <= R.
Proof.
  rewrite Rad_B. pose proof (zk_n _ _ OK). replace B with (B ^ 1) at 1 by reflexivity. facts. apply Z.pow_le_mono_r; lia.
Qed.
Lemma Raw_fromUI_spec r v m : 0 <= v < B -> exists m', Raw_fromUI P r v m = Some m' /\
  val m' r (v mod q) /\ only r m m'.
Proof. intros Hv. apply Raw_fromMpz_spec. pose proof B_le_R. lia. Qed.
Lemma Raw_set_spec r v m : is_int32 v -> 2 ^ 31 <= q -> exists m', Raw_set P r v m = Some m' /\
  val m' r (v mod q) /\ only r m m'.
Proof.
  intros Hv Hq. unfold is_int32 in Hv. unfold Raw_set. rewrite q_eval.
  set (w := if v <? 0 then v + q else v).
  assert (Hw : 0 <= w < R /\ w mod q = v mod q).
  { pose proof B_le_R. assert (2 ^ 32 < B) by reflexivity. pose proof q_lt_R. rewrite <- Rad_B in *. unfold w.
    destruct (Z.ltb_spec v 0); split; try lia. replace (v + q) with (v + 1 * q) by lia. apply Z.mod_add. facts. lia. }
  destruct Hw as [Hw E]. destruct (export_some n w (m r)) as [l ->]; [rewrite <- Rad_B; auto|].
  destruct (Raw_fromMpz_spec r w (upd m r l) Hw) as (m' & E' & H1 & H2). rewrite E in H1.
  exists m'. split; [auto|]. split; [auto|]. eapply only_trans; [apply only_upd|exact H2].
Qed.
Lemma Raw_fromString_spec r s radix v m : mpz_set_str radix s = Some v -> exists m', Raw_fromString P r s radix m = Some m' /\
  val m' r (v mod q) /\ only r m m'.
Proof.
  intros E. unfold Raw_fromString. rewrite E, q_eval.
  destruct (Raw_fromMpz_spec r (v mod q) m (mod_lt_R v)) as (m' & E' & H1 & H2). rewrite Zmod_mod in H1. eauto.
Qed.

Lemma R_coprime : rel_prime R q.
Proof.
  rewrite Rad_B. apply rel_prime_sym. apply Zpow_facts.rel_prime_Zpower_r; [lia|]. rewrite B_eq.
  apply Zpow_facts.rel_prime_Zpower_r; [lia|]. apply rel_prime_sym. apply prime_rel_prime; [apply prime_2|].
  intros [k Hk]. pose proof (zk_odd _ _ OK) as Ho. rewrite Hk, Z.odd_mul, andb_comm in Ho. discriminate.
Qed.
Lemma mont_coprime x : Z.gcd x q = 1 -> Z.gcd ((x * R) mod q) q = 1.
Proof.
  intros H. facts. rewrite Z.gcd_mod by lia. apply Zgcd_1_rel_prime.
  apply rel_prime_mult; apply rel_prime_sym; [|apply R_coprime]. apply Zgcd_1_rel_prime. exact H.
Qed.
Lemma Raw_inv_spec r a m x : val m a x -> Z.gcd x q = 1 ->
  exists m' y, Raw_inv P r a m = Some m' /\ val m' r y /\ (x * y) mod q = 1 /\ only r m m'.
Proof.
  intros H Hg. facts. unfold Raw_inv. rewrite q_eval, (rval_eval _ _ _ H).
  destruct (modInv_complete ((x * R) mod q) q ltac:(lia) (mont_coprime x Hg)) as [i Ei]. rewrite Ei.
  apply modInv_some in Ei as [Hi1 Hi2]; [|lia]. pose proof q_lt_R.
  rewrite export_zero' by lia. set (m1 := upd m r (to_limbs n i)).
  destruct (rawMMul_c_spec q P OK r r (p_R3 P) m1) as (z & Hz1 & E & Hz2).
  { unfold m1. rewrite upd_eq. apply to_limbs_ok. }
  { apply (R3_val q P OK). }
  { rewrite (proj2 (R3_val q P OK)). apply Z.mod_pos_bound. lia. }
  exists (rawMMul_c P r r (p_R3 P) m1), ((i * R) mod q). split; [reflexivity|].
  unfold m1 in E. rewrite upd_eq, eval_to_limbs_small, (proj2 (R3_val q P OK)) in E by lia.
  split. { eapply rval_intro; [exact Hz1|]. apply (Rad_cancel q P OK). rewrite E. modring. }
  split. { rewrite <- Hi2. modring. }
  eapply only_trans; [apply only_upd|exact Hz2].
Qed.
(** the value is undefined when there is no inverse *)
Lemma Raw_inv_none r a m x : val m a x -> Z.gcd x q <> 1 -> Raw_inv P r a m = None.
Proof.
  intros H Hg. facts. unfold Raw_inv. rewrite q_eval, (rval_eval _ _ _ H).
  destruct (modInv ((x * R) mod q) q) as [i|] eqn:E; [|reflexivity]. exfalso. apply Hg.
  apply modInv_gcd in E; [|lia]. rewrite Z.gcd_mod in E by lia. rewrite Z.gcd_comm in E.
  apply Zgcd_1_rel_prime in E. apply Zgcd_1_rel_prime. apply rel_prime_div with (x * R); [exact E|]. exists R. ring.
Qed.
Lemma Raw_div_spec r a b m x y : val m a x -> val m b y -> a <> T 0 -> Z.gcd y q = 1 ->
  exists m' z, Raw_div P r a b m = Some m' /\ val m' r z /\ (z * y) mod q = x /\
  forall p, p <> r -> p <> T 0 -> m' p = m p.
Proof.
  intros H1 H2 Ha Hg. unfold Raw_div. destruct (Raw_inv_spec (T 0) b m y H2 Hg) as (m1 & i & -> & Hi & E & O1).
  assert (H1' : val m1 a x). { unfold rval, holds in *. rewrite (O1 a Ha). exact H1. }
  destruct (Raw_mul_spec r a (T 0) m1 x i H1' Hi) as [H3 O2].
  eexists; exists ((x * i) mod q). split; [reflexivity|]. split; [exact H3|]. split.
  - transitivity ((x * (y * i mod q)) mod q); [modring|]. rewrite E, Z.mul_1_r. apply Z.mod_small, H1.
  - intros p Hp Hp'. rewrite (O2 p Hp). apply O1, Hp'.
Qed.

Lemma fOne_spec m r : val (upd m r (fOne P)) r 1.
Proof.
  facts. pose proof q_lt_R.
  destruct (Raw_fromMpz_spec r 1 m) as (m' & E & Hv & _). { pose proof B_le_R; lia. }
  unfold Raw_fromMpz in E. rewrite export_zero' in E by lia. injection E as <-.
  rewrite (Z.mod_small 1 q) in Hv by lia. unfold rval, holds in *.
  unfold rawToMontgomery, rawMMul_c in Hv. rewrite !upd_eq in *. exact Hv.
Qed.

(** ** exponentiation *)
Section Exp.
Variables (r : ptr) (s : list Z) (x : Z).
Hypothesis Hs : bytes_ok s.
Hypothesis Hr : r <> T 0.
Let k := le_val s.
Lemma k_nonneg : 0 <= k. Proof. apply le_val_bound, Hs. Qed.

Lemma exp_loop_spec i : forall found m, val m (T 0) x ->
  found = (0 <? k / 2 ^ Z.of_nat i) -> (found = true -> val m r (x ^ (k / 2 ^ Z.of_nat i) mod q)) ->
  let res := exp_loop P r s i found m in
  fst res = (0 <? k) /\ (0 < k -> val (snd res) r (x ^ k mod q)) /\ only r m (snd res).
Proof.
  pose proof k_nonneg as K0. induction i as [|i IH]; intros found m Hb Ef Hv; cbn [exp_loop].
  - cbn [fst snd]. rewrite Z.div_1_r in *. split; [auto|]. split; [|apply only_refl]. intros. apply Hv. lia.
  - pose proof (half_bits k (Z.of_nat i) K0 ltac:(lia)) as Hh.
    replace (Z.of_nat i + 1) with (Z.of_nat (S i)) in Hh by lia.
    set (h := k / 2 ^ Z.of_nat (S i)) in *.
    assert (Hh0 : 0 <= h) by (apply Z.div_pos; [auto|]; apply Z.pow_pos_nonneg; lia).
    rewrite (bit_is_set_spec s i Hs). fold k.
    destruct found; cbn [negb].
    + specialize (Hv eq_refl). destruct (Raw_square_spec r r m _ Hv) as [H1 O1].
      set (m1 := Raw_square P r r m) in *.
      assert (Hb1 : val m1 (T 0) x). { unfold rval, holds in *. rewrite (O1 (T 0)) by auto. exact Hb. }
      assert (Ep : forall e, 0 <= e -> (x ^ (2 * h) * x ^ e) mod q = x ^ (2 * h + e) mod q) by (intros; rewrite Z.pow_add_r by lia; reflexivity).
      assert (E1 : (x ^ h mod q * (x ^ h mod q)) mod q = x ^ (2 * h) mod q).
      { replace (2 * h) with (h + h) by lia. rewrite Z.pow_add_r by lia. modring. }
      rewrite E1 in H1.
      destruct (Z.testbit k (Z.of_nat i)); cbn [Z.b2z] in Hh.
      * destruct (Raw_mul_spec r r (T 0) m1 _ _ H1 Hb1) as [H2 O2]. set (m2 := Raw_mul P r r (T 0) m1) in *.
        assert (Hb2 : val m2 (T 0) x). { unfold rval, holds in *. rewrite (O2 (T 0)) by auto. exact Hb1. }
        destruct (IH true m2 Hb2) as (A1 & A2 & A3); [lia| |].
        { intros _. rewrite Hh. rewrite <- Ep by lia. rewrite Z.pow_1_r. replace ((x ^ (2 * h) * x) mod q) with ((x ^ (2 * h) mod q * x) mod q) by modring. exact H2. }
        split; [auto|]. split; [auto|]. eapply only_trans; [exact O1|]. eapply only_trans; [exact O2|exact A3].
      * destruct (IH true m1 Hb1) as (A1 & A2 & A3); [lia| |].
        { intros _. rewrite Hh, Z.add_0_r. exact H1. }
        split; [auto|]. split; [auto|]. eapply only_trans; [exact O1|exact A3].
    + assert (h = 0) by lia. destruct (Z.testbit k (Z.of_nat i)); cbn [Z.b2z negb] in *.
      * destruct (Raw_copy_spec r (T 0) m x Hb) as [H1 O1].
        assert (Hb1 : val (Raw_copy r (T 0) m) (T 0) x). { unfold rval, holds in *. rewrite (O1 (T 0)) by auto. exact Hb. }
        destruct (IH true _ Hb1) as (A1 & A2 & A3); [lia| |].
        { intros _. replace (k / 2 ^ Z.of_nat i) with 1 by lia. rewrite Z.pow_1_r, Z.mod_small; [exact H1|apply Hb]. }
        split; [auto|]. split; [auto|]. eapply only_trans; [exact O1|exact A3].
      * destruct (IH false m Hb) as (A1 & A2 & A3); [lia|discriminate|]. auto.
Qed.
End Exp.

Lemma exp_iters_ok k : (Z.of_nat k <= 2 ^ 28) -> exp_iters (Z.of_nat k) = (8 * k)%nat.
Proof.
  intros H. unfold exp_iters, to_int32. destruct (Nat.eq_dec k 0) as [->|]; [reflexivity|].
  rewrite (Z.mod_small (Z.of_nat k * 8 - 1)) by lia. rewrite Z.mod_small by lia. lia.
Qed.

Lemma Raw_exp_spec r base s m x : bytes_ok s -> Z.of_nat (length s) <= 2 ^ 28 -> r <> T 0 -> val m base x ->
  val (Raw_exp P r base s m) r (x ^ le_val s mod q) /\
  forall p, p <> r -> p <> T 0 -> Raw_exp P r base s m p = m p.
Proof.
  intros Hs Hl Hr H. unfold Raw_exp. rewrite exp_iters_ok by auto.
  destruct (Raw_copy_spec (T 0) base m x H) as [H1 O1]. set (m0 := Raw_copy (T 0) base m) in *.
  pose proof (le_val_bound s Hs) as Hb.
  assert (E0 : le_val s / 2 ^ Z.of_nat (8 * length s) = 0).
  { apply Z.div_small. replace (2 ^ Z.of_nat (8 * length s)) with (256 ^ Z.of_nat (length s)); [lia|].
    replace 256 with (2 ^ 8) by reflexivity. rewrite <- Z.pow_mul_r by lia. f_equal. lia. }
  destruct (exp_loop_spec r s x Hs Hr (8 * length s)%nat false m0 H1) as (A1 & A2 & A3); [rewrite E0; reflexivity|discriminate|].
  destruct (exp_loop P r s (8 * length s) false m0) as [f m1]. cbn [fst snd] in *.
  destruct f; cbn [negb].
  - split; [apply A2; lia|]. intros p Hp Hp'. rewrite (A3 p Hp). apply O1, Hp'.
  - replace (le_val s) with 0 by lia. facts. cbn [Z.pow]. rewrite (Z.mod_small 1 q) by lia. split; [apply fOne_spec|].
    intros p Hp Hp'. rewrite upd_neq by auto. rewrite (A3 p Hp). apply O1, Hp'.
Qed.

(** ** serialisation *)
Lemma R_256 : 256 ^ Z.of_nat (n * 8) = R.
Proof. unfold Rad. replace 256 with (2 ^ 8) by reflexivity. rewrite <- Z.pow_mul_r by lia. f_equal. lia. Qed.
Lemma toRprBE_spec a data m x : val m a x -> x <> 0 -> length data = (n * 8)%nat ->
  Raw_toRprBE P a data (Z.of_nat n * 8) m = (Z.of_nat n * 8, be_bytes (n * 8) x).
Proof.
  intros H Hx Hl. unfold Raw_toRprBE. rewrite Z.ltb_irrefl, (Raw_toMpz_spec a m x H).
  destruct (Z.eqb_spec x 0) as [|Nx]; [congruence|]. replace (Z.to_nat (Z.of_nat n * 8)) with (n * 8)%nat by lia.
  rewrite skipn_all2 by lia. rewrite app_nil_r. reflexivity.
Qed.
Lemma fromRprBE_spec r data bytes m : bytes_ok data -> Z.of_nat n * 8 <= bytes <= Z.of_nat (length data) ->
  exists m', Raw_fromRprBE P r data bytes m = Some (Z.of_nat n * 8, m') /\
  val m' r (be_val (firstn (n * 8) data) mod q) /\ only r m m'.
Proof.
  intros Hd Hb. unfold Raw_fromRprBE. replace (bytes <? Z.of_nat n * 8) with false by lia.
  assert (Hf : bytes_ok (firstn (n * 8) data)).
  { unfold bytes_ok in *. rewrite <- (firstn_skipn (n * 8) data) in Hd. apply Forall_app in Hd. apply Hd. }
  pose proof (be_val_bound _ Hf) as Hv. rewrite firstn_length in Hv. replace (Nat.min (n * 8) (length data)) with (n * 8)%nat in Hv by lia.
  rewrite R_256 in Hv. destruct (Raw_fromMpz_spec r _ m Hv) as (m' & -> & H1 & H2). eauto.
Qed.

(** ** mpz functions on tagged elements *)
Hypothesis Q32 : 2 ^ 32 < q.

Lemma toMpz_spec a m x : typed n m -> elt q n m a x -> Fr_toMpz P a m = x.
Proof.
  intros Ht Hx. unfold Fr_toMpz. rewrite q_eval.
  destruct (toNormal_spec q P OK (T 9) a m x Ht Hx) as (_ & H2 & _ & H4 & _ & _).
  destruct (isLong (mt (Fr_toNormal P (T 9) a m) (T 9))) eqn:E; cbn [negb].
  - destruct (long_cases q P _ _ _ H2 E) as [[_ ?]|[_ E']]; [congruence|].
    apply (elt_long q P _ _ _ H2) in E'. apply E'.
  - destruct (elt_short q P _ _ _ H2 E) as [Hs Ev]. unfold is_int32 in Hs.
    destruct (Z.ltb_spec (ms (Fr_toNormal P (T 9) a m) (T 9)) 0); rewrite Ev.
    + rewrite mod_add_once; lia.
    + rewrite Z.mod_small; lia.
Qed.

Lemma fromMpz_spec r v m : typed n m -> 0 <= v < q ->
  exists m', Fr_fromMpz P r v m = Some m' /\ yields q n r m m' v /\ chgs [r] m m'.
Proof.
  intros Ht Hv. unfold Fr_fromMpz. destruct (fits_sint v) eqn:E; unfold fits_sint in E.
  - eexists. split; [reflexivity|].
    assert (C : chgs [r] m (setS r v (setT r SHORT m))).
    { intros p Hp. cbn in Hp. repeat split; cbn; rewrite ?upd_neq; auto. }
    split; [|exact C]. apply chgs_yields; [exact C|exact Ht|].
    apply elt_short_intro; cbn [ms mt ml setS setT]; rewrite ?upd_eq; auto; unfold is_int32; try lia.
    all: rewrite Z.mod_small; lia.
  - pose proof q_lt_R. rewrite export_zero' by lia. eexists. split; [reflexivity|].
    assert (C : chgs [r] m (onL (fun x => upd x r (to_limbs n v)) (setT r LONG m))).
    { intros p Hp. cbn in Hp. repeat split; cbn; rewrite ?upd_neq; auto. }
    split; [|exact C]. apply chgs_yields; [exact C| |].
    + intros p. cbn [ml onL setT]. unfold upd. destruct (ptr_eqb p r); [apply to_limbs_ok|apply Ht].
    + apply elt_long_intro; cbn [ms mt ml onL setT]; rewrite ?upd_eq; auto.
      unfold holds. rewrite upd_eq. split; [apply to_limbs_ok|]. split; [|lia]. apply eval_to_limbs_small; lia.
Qed.

Lemma Fr_idiv_spec r a b m x y : typed n m -> elt q n m a x -> elt q n m b y -> y <> 0 ->
  exists m', Fr_idiv P r a b m = Some m' /\ yields q n r m m' (x / y).
Proof.
  intros Ht Hx Hy N. unfold Fr_idiv. rewrite (toMpz_spec a m x), (toMpz_spec b m y) by auto. cbv zeta.
  destruct (Z.eqb_spec y 0) as [|Ny]; [congruence|].
  pose proof (elt_range q P _ _ _ Hx). pose proof (elt_range q P _ _ _ Hy).
  destruct (fromMpz_spec r (x / y) m Ht) as (m' & E & Y & _); [|eauto].
  split; [apply Z.div_pos; lia|]. apply Z.div_lt_upper_bound; nia.
Qed.
Lemma Fr_mod_spec r a b m x y : typed n m -> elt q n m a x -> elt q n m b y -> y <> 0 ->
  exists m', Fr_mod P r a b m = Some m' /\ yields q n r m m' (x mod y).
Proof.
  intros Ht Hx Hy N. unfold Fr_mod. rewrite (toMpz_spec a m x), (toMpz_spec b m y) by auto. cbv zeta.
  destruct (Z.eqb_spec y 0) as [|Ny]; [congruence|].
  pose proof (elt_range q P _ _ _ Hx). pose proof (elt_range q P _ _ _ Hy).
  pose proof (Z.mod_pos_bound x y ltac:(lia)).
  destruct (fromMpz_spec r (x mod y) m Ht) as (m' & E & Y & _); [lia|eauto].
Qed.
Lemma Fr_pow_spec r a b m x y : typed n m -> elt q n m a x -> elt q n m b y ->
  exists m', Fr_pow P r a b m = Some m' /\ yields q n r m m' (x ^ y mod q).
Proof.
  intros Ht Hx Hy. unfold Fr_pow. rewrite (toMpz_spec a m x), (toMpz_spec b m y) by auto. cbv zeta.
  rewrite q_eval, Zpow_mod_correct by (facts; lia).
  destruct (fromMpz_spec r (x ^ y mod q) m Ht) as (m' & E & Y & _); [|eauto].
  apply Z.mod_pos_bound. facts. lia.
Qed.
Lemma Fr_inv_spec r a m x : typed n m -> elt q n m a x -> Z.gcd x q = 1 ->
  exists m' y, Fr_inv P r a m = Some m' /\ yields q n r m m' y /\ (x * y) mod q = 1 /\ chgs [r] m m'.
Proof.
  intros Ht Hx Hg. facts. unfold Fr_inv. rewrite (toMpz_spec a m x) by auto. rewrite q_eval.
  destruct (modInv_complete x q ltac:(lia) Hg) as [i Ei]. rewrite Ei. apply modInv_some in Ei as [Hi1 Hi2]; [|lia].
  destruct (fromMpz_spec r i m Ht Hi1) as (m' & E & Y & C). exists m', i. auto.
Qed.
Lemma Fr_inv_none r a m x : typed n m -> elt q n m a x -> Z.gcd x q <> 1 -> Fr_inv P r a m = None.
Proof.
  intros Ht Hx Hg. facts. unfold Fr_inv. rewrite (toMpz_spec a m x), q_eval by auto.
  destruct (modInv x q) as [i|] eqn:E; [|reflexivity]. apply modInv_gcd in E; [contradiction|lia].
Qed.
Lemma Fr_div_spec r a b m x y : 2 ^ 62 < q -> typed n m -> usr a -> elt q n m a x -> elt q n m b y -> Z.gcd y q = 1 ->
  exists m' z, Fr_div P r a b m = Some m' /\ yields q n r m m' z /\ (z * y) mod q = x.
Proof.
  intros Q62 Ht Ha Hx Hy Hg. unfold Fr_div.
  destruct (Fr_inv_spec (T 8) b m y Ht Hy Hg) as (m1 & i & -> & (Ht1 & Hi & _) & E & C).
  assert (Hx1 : elt q n m1 a x). { apply elt_same with m; [|exact Hx]. apply C. cbn. intros [X|[]]. apply (usr_neq a 8 Ha); [lia|congruence]. }
  destruct (Fr_mul_spec q P OK r a (T 8) m1 x i Q62 Ht1 Hx1 Hi) as (M1 & M2 & M3).
  eexists; exists ((x * i) mod q). split; [reflexivity|]. split.
  - split; [exact M1|]. split; [exact M2|]. intros p Hu Hp. destruct (M3 p Hu Hp) as (E1 & E2 & E3).
    destruct (C p) as (F1 & F2 & F3). { cbn. intros [X|[]]. apply (usr_neq p 8 Hu); [lia|congruence]. }
    unfold same_at. rewrite E1, E2, E3. auto.
  - transitivity ((x * (y * i mod q)) mod q); [modring|]. rewrite E, Z.mul_1_r. apply Z.mod_small, (elt_range q P _ _ _ Hx).
Qed.

Lemma element2str_spec a m x : typed n m -> elt q n m a x -> Fr_element2str P a m = mpz_get_str 10 x.
Proof.
  intros Ht Hx. unfold Fr_element2str. rewrite q_eval.
  destruct (isLong (mt m a)) eqn:E; cbn [negb].
  - destruct (toNormal_spec q P OK (T 9) a m x Ht Hx) as (_ & _ & _ & _ & H & _).
    specialize (H E). f_equal. apply H.
  - destruct (elt_short q P _ _ _ Hx E) as [Hs Ev]. unfold is_int32 in Hs.
    destruct (Z.leb_spec 0 (ms m a)); f_equal; rewrite Ev.
    + rewrite Z.mod_small; lia.
    + rewrite mod_add_once; lia.
Qed.
Lemma str2element_spec r s v m : typed n m -> mpz_set_str 10 s = Some v ->
  exists m', Fr_str2element P r s m = Some m' /\ yields q n r m m' (v mod q).
Proof.
  intros Ht E. unfold Fr_str2element. rewrite E, q_eval.
  destruct (fromMpz_spec r (v mod q) m Ht) as (m' & E' & Y & _); [|eauto].
  apply Z.mod_pos_bound. facts. lia.
Qed.
End Cpp.
