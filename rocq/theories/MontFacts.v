(** Correctness of the Montgomery kernels on limb lists. *)
From Coq Require Import ZArith List Lia Bool Znumtheory ZifyBool.
From Verif Require Import Limbs LimbsFacts Gen GenFacts Raw.
Import ListNotations.
Open Scope Z_scope.

Section Mont.
Variables (q : Z) (P : zq).
Hypothesis OK : zq_ok q P.
Notation n := (p_n64 P).
Notation R := (B ^ Z.of_nat n).

Let qb := q_bound q P OK.
Let Rpos : 0 < R := Bpow_pos n.
Let Bp := B_pos.
Let B1 := B_gt1.
Let q1 := zk_gt1 _ _ OK.

Lemma cmod_trans (a b c : Z) : a mod q = b mod q -> b mod q = c mod q -> a mod q = c mod q.
Proof. congruence. Qed.

Lemma reduce_row_spec p : limbs_ok (S n) p ->
  exists m p' c, reduce_row P p = (p', c) /\ 0 <= m < B /\ limbs_ok n (tl p') /\ 0 <= c /\
                 B * (eval (tl p') + R * c) = eval p + q * m.
Proof.
  intros Hp. unfold reduce_row, mpn_addmul_1.
  rewrite (rawq_eval q P OK).
  set (m := (p_np P * get p 0) mod B).
  assert (Hm : 0 <= m < B) by (apply Z.mod_pos_bound; lia).
  set (s := eval p + q * m).
  pose proof (eval_bound _ _ Hp) as Hpb.
  assert (Hs0 : 0 <= s) by nia.
  pose proof (to_limbs_ok (S n) s) as Hok.
  pose proof (eval_to_limbs (S n) s) as Hev.
  apply limbs_ok_S in Hok as (x & t & E & Hx & Ht).
  exists m, (to_limbs (S n) s), (s / B ^ Z.of_nat (S n)).
  rewrite E in Hev |- *. cbn [tl eval] in *.
  assert (Hx0 : x = 0).
  { assert (Hxs : x mod B = s mod B).
    { transitivity ((x + B * eval t) mod B).
      - rewrite (Z.mul_comm B), Z.mod_add; lia.
      - rewrite Hev, Bpow_S.
        rewrite Z.rem_mul_r by lia.
        rewrite (Z.mul_comm B), Z.mod_add by lia. apply Z.mod_mod; lia. }
    rewrite Z.mod_small in Hxs by lia. rewrite Hxs.
    unfold s, m.
    assert (Hg : eval p mod B = get p 0).
    { apply limbs_ok_S in Hp as (y & u & -> & Hy & _). unfold get; cbn [nth eval].
      rewrite (Z.mul_comm B), Z.mod_add, Z.mod_small; lia. }
    rewrite Z.add_mod, Z.mul_mod_idemp_r, Hg by lia.
    rewrite Z.mul_assoc.
    rewrite <- (Z.mul_1_l (get p 0)) at 1.
    replace ((1 * get p 0 + (q * p_np P * get p 0) mod B) mod B)
      with ((get p 0 * (q * p_np P + 1)) mod B).
    - rewrite Z.mul_mod, (zk_np _ _ OK), Z.mul_0_r, Z.mod_0_l; lia.
    - rewrite Z.add_mod_idemp_r by lia. f_equal. ring. }
  subst x.
  repeat split; try (apply Ht); try lia.
  - apply Z.div_pos; [lia|apply Bpow_pos].
  - pose proof (Z.div_mod s (B ^ Z.of_nat (S n)) ltac:(pose proof (Bpow_pos (S n)); lia)) as Hdm.
    rewrite <- Hev in Hdm. rewrite Bpow_S in *. lia.
Qed.

(** Strict bound kept by every row. *)
Definition inv_row (V : Z) : Prop := 0 <= V < q * (B + 1).

Lemma row_t V m t : inv_row V -> 0 <= m < B -> B * t = V + q * m -> 0 <= t < 2 * q.
Proof. unfold inv_row. intros. nia. Qed.

Lemma mul_split b w : 0 <= b < R -> 0 <= w < B ->
  let c2 := b * w / R in
  eval (to_limbs n (b * w)) + R * c2 = b * w /\ 0 <= c2 <= B - 2.
Proof.
  intros Hb Hw c2. split.
  - rewrite eval_to_limbs. pose proof (Z.div_mod (b * w) R ltac:(lia)). subst c2. lia.
  - split; [apply Z.div_pos; nia|].
    assert (c2 < B - 1); [|lia]. apply Z.div_lt_upper_bound; nia.
Qed.

Lemma mmul_loop_spec b al : forall p cn,
  limbs_ok n b -> eval b < q ->
  Forall (fun x => 0 <= x < B) al -> limbs_ok (S n) p -> 0 <= cn ->
  inv_row (eval p + B ^ Z.of_nat (S n) * cn) ->
  exists p' cn', mmul_loop P b al p cn = (p', cn') /\ limbs_ok (S n) p' /\ 0 <= cn' /\
    inv_row (eval p' + B ^ Z.of_nat (S n) * cn') /\
    (B ^ Z.of_nat (length al) * (eval p' + B ^ Z.of_nat (S n) * cn')) mod q
     = (eval p + B ^ Z.of_nat (S n) * cn + eval b * B * eval al) mod q.
Proof.
  induction al as [|ai al IH]; intros p cn Hb Hbq Hal Hp Hcn Hinv.
  - exists p, cn. cbn [mmul_loop length eval]. repeat split; auto; try apply Hp; try apply Hinv.
    change (B ^ Z.of_nat 0) with 1. f_equal. ring.
  - cbn [mmul_loop].
    destruct (reduce_row_spec p Hp) as (m & p' & c1 & -> & Hm & Htl & Hc1 & Heq).
    inversion Hal as [|? ? Hai Hal']; subst.
    pose proof (eval_bound _ _ Hb) as Hbb.
    pose proof (eval_bound _ _ Htl) as Htlb.
    unfold mpn_addmul_1. rewrite eval_repeat0, Z.add_0_l.
    destruct (mul_split (eval b) ai ltac:(lia) Hai) as [Hlo Hc2].
    set (lo := to_limbs n (eval b * ai)) in *. set (c2 := eval b * ai / R) in *.
    cbv zeta in Hlo, Hc2.
    set (t := eval (tl p') + R * (c1 + cn)).
    assert (Ht : 0 <= t < 2 * q).
    { apply (row_t _ m t Hinv Hm). rewrite Bpow_S. unfold t. lia. }
    assert (Hctot : c1 + cn <= 1) by (unfold t in Ht; nia).
    rewrite (Z.mod_small (cn + c1)) by lia.
    rewrite (Z.mod_small (cn + c1 + c2)) by lia.
    unfold mpn_add.
    assert (Hpn : eval (lo ++ [cn + c1 + c2]) + eval (tl p') = t + eval b * ai).
    { rewrite eval_app. unfold lo at 2. rewrite to_limbs_length. cbn [eval].
      unfold t. rewrite <- Hlo. ring. }
    rewrite Hpn.
    set (V' := t + eval b * ai) in *.
    assert (HV' : inv_row V') by (unfold inv_row, V'; nia).
    pose proof (Z.div_mod V' (B ^ Z.of_nat (S n)) ltac:(pose proof (Bpow_pos (S n)); lia)) as Hdm.
    assert (HVe : eval (to_limbs (S n) V') + B ^ Z.of_nat (S n) * (V' / B ^ Z.of_nat (S n)) = V').
    { rewrite eval_to_limbs. lia. }
    destruct (IH (to_limbs (S n) V') (V' / B ^ Z.of_nat (S n))) as (pf & cf & -> & Hpf & Hcf & Hif & Hmod); auto.
    + apply to_limbs_ok.
    + apply Z.div_pos; [destruct HV'; lia|apply Bpow_pos].
    + rewrite HVe. exact HV'.
    + exists pf, cf. split; [reflexivity|]. repeat split; auto; try apply Hpf; try apply Hif.
      rewrite HVe in Hmod. cbn [length eval]. rewrite Bpow_S, <- Z.mul_assoc.
      rewrite <- Z.mul_mod_idemp_r, Hmod, Z.mul_mod_idemp_r by lia.
      replace (B * (V' + eval b * B * eval al))
        with (eval p + B ^ Z.of_nat (S n) * cn + eval b * B * (ai + B * eval al) + m * q).
      * rewrite Z.mod_add by lia. reflexivity.
      * rewrite Bpow_S. unfold V', t.
        replace (eval p) with (B * (eval (tl p') + R * c1) - q * m) by lia. ring.
Qed.

Lemma mmul_loop_opt_spec b al : forall p,
  2 * q < R ->
  limbs_ok n b -> eval b < q ->
  Forall (fun x => 0 <= x < B) al -> limbs_ok (S n) p ->
  inv_row (eval p) ->
  limbs_ok (S n) (mmul_loop_opt P b al p) /\
    inv_row (eval (mmul_loop_opt P b al p)) /\
    (B ^ Z.of_nat (length al) * eval (mmul_loop_opt P b al p)) mod q
     = (eval p + eval b * B * eval al) mod q.
Proof.
  induction al as [|ai al IH]; intros p Hopt Hb Hbq Hal Hp Hinv.
  - cbn [mmul_loop_opt length eval]. repeat split; auto; try apply Hp; try apply Hinv.
    change (B ^ Z.of_nat 0) with 1. f_equal. ring.
  - cbn [mmul_loop_opt].
    destruct (reduce_row_spec p Hp) as (m & p' & c1 & -> & Hm & Htl & Hc1 & Heq).
    inversion Hal as [|? ? Hai Hal']; subst.
    pose proof (eval_bound _ _ Hb) as Hbb.
    pose proof (eval_bound _ _ Htl) as Htlb.
    assert (Ht : 0 <= eval (tl p') + R * c1 < 2 * q).
    { apply (row_t _ m _ Hinv Hm). lia. }
    assert (c1 = 0) by nia. subst c1.
    unfold mpn_addmul_1.
    assert (Hz : eval (set (repeat 0 n) 1 0) = 0).
    { clear. generalize 1%nat as i. induction n as [|k IHk]; intros; destruct i; cbn [repeat set eval]; auto.
      - rewrite eval_repeat0; lia.
      - rewrite IHk; lia. }
    rewrite Hz, Z.add_0_l.
    destruct (mul_split (eval b) ai ltac:(lia) Hai) as [Hlo Hc2].
    set (lo := to_limbs n (eval b * ai)) in *. set (c2 := eval b * ai / R) in *.
    cbv zeta in Hlo, Hc2.
    unfold mpn_add.
    assert (Hpn : eval (lo ++ [c2]) + eval (tl p') = eval (tl p') + eval b * ai).
    { rewrite eval_app. unfold lo at 2. rewrite to_limbs_length. cbn [eval].
      rewrite <- Hlo. ring. }
    rewrite Hpn.
    set (V' := eval (tl p') + eval b * ai) in *.
    assert (HV' : inv_row V') by (unfold inv_row, V'; nia).
    assert (HVe : eval (to_limbs (S n) V') = V').
    { apply eval_to_limbs_small. rewrite Bpow_S. unfold inv_row in HV'. nia. }
    destruct (IH (to_limbs (S n) V')) as (Hpf & Hif & Hmod); auto.
    + apply to_limbs_ok.
    + rewrite HVe. exact HV'.
    + repeat split; auto; try apply Hpf; try apply Hif.
      rewrite HVe in Hmod. cbn [length eval]. rewrite Bpow_S, <- Z.mul_assoc.
      rewrite <- Z.mul_mod_idemp_r, Hmod, Z.mul_mod_idemp_r by lia.
      replace (B * (V' + eval b * B * eval al))
        with (eval p + eval b * B * (ai + B * eval al) + m * q).
      * rewrite Z.mod_add by lia. reflexivity.
      * unfold V'.
        replace (eval p) with (B * (eval (tl p') + R * 0) - q * m) by lia. ring.
Qed.

(** Conditional final subtraction. *)
Lemma final_sub_spec c l (cz : Z) : limbs_ok n l -> 0 <= cz -> c = negb (cz =? 0) ->
  eval l + R * cz < 2 * q ->
  limbs_ok n (final_sub P c l) /\ eval (final_sub P c l) = (eval l + R * cz) mod q.
Proof.
  intros Hl Hcz -> Hlt. unfold final_sub. rewrite mpn_cmp_ge, (q_eval q P OK).
  pose proof (eval_bound _ _ Hl).
  assert (cz <= 1) by nia.
  unfold mpn_sub_n; cbn [fst]. rewrite (q_eval q P OK).
  destruct (Z.eqb_spec cz 0) as [->|Hc]; cbn [negb orb].
  - rewrite Z.mul_0_r, Z.add_0_r in *. destruct (Z.leb_spec q (eval l)).
    + split; [apply to_limbs_ok|]. rewrite eval_to_limbs_small by lia.
      replace (eval l) with ((eval l - q) + 1 * q) at 2 by lia. rewrite Z.mod_add, Z.mod_small; lia.
    + split; [auto|]. rewrite Z.mod_small; lia.
  - assert (cz = 1) by lia. subst cz. split; [apply to_limbs_ok|].
    rewrite eval_to_limbs.
    replace (eval l - q) with ((eval l + R - q) + (-1) * R) by lia.
    rewrite Z.mod_add by lia. rewrite Z.mod_small by lia.
    replace (eval l + R * 1) with ((eval l + R - q) + 1 * q) by lia. rewrite Z.mod_add, Z.mod_small; lia.
Qed.

Lemma tl_ok a : limbs_ok n a -> exists a0, a = a0 :: tl a /\ 0 <= a0 < B /\
   Forall (fun x => 0 <= x < B) (tl a) /\ length (tl a) = (n - 1)%nat.
Proof.
  intros Ha. pose proof (zk_n _ _ OK).
  replace n with (S (n - 1)) in Ha by lia.
  apply limbs_ok_S in Ha as (x & t & -> & Hx & [Ht1 Ht2]). exists x. cbn [tl]. repeat split; auto; lia.
Qed.

Lemma finish_mod x t V m : B * t = V + q * m -> (B ^ Z.of_nat (n - 1) * V) mod q = x mod q ->
  (R * (t mod q)) mod q = x mod q.
Proof.
  intros H1 H2. rewrite Z.mul_mod_idemp_r by lia.
  replace R with (B ^ Z.of_nat (n - 1) * B).
  - rewrite <- Z.mul_assoc, H1, Z.mul_add_distr_l.
    replace (B ^ Z.of_nat (n - 1) * (q * m)) with (B ^ Z.of_nat (n - 1) * m * q) by ring.
    rewrite Z.mod_add by lia. exact H2.
  - pose proof (zk_n _ _ OK). rewrite Z.mul_comm, <- Bpow_S. do 2 f_equal. lia.
Qed.

(** Montgomery product: exact for every a < 2^(64 n64) and every b < q. *)
Theorem mmul_spec a b : limbs_ok n a -> limbs_ok n b -> eval b < q ->
  limbs_ok n (mmul P a b) /\ 0 <= eval (mmul P a b) < q /\
  (R * eval (mmul P a b)) mod q = (eval a * eval b) mod q.
Proof.
  intros Ha Hb Hbq. unfold mmul, mpn_mul_1.
  destruct (tl_ok a Ha) as (a0 & Ea & Ha0 & HF & Hlen).
  assert (Hg : get a 0 = a0) by (rewrite Ea; reflexivity). rewrite Hg.
  assert (Hev : eval a = a0 + B * eval (tl a)) by (rewrite Ea; reflexivity).
  pose proof (eval_bound _ _ Hb) as Hbb.
  destruct (mul_split (eval b) a0 ltac:(lia) Ha0) as [Hlo Hc2]. cbv zeta in Hlo, Hc2.
  set (p0 := to_limbs n (eval b * a0) ++ [eval b * a0 / R]).
  assert (Hp0 : limbs_ok (S n) p0).
  { replace (S n) with (n + 1)%nat by lia. apply limbs_ok_app; [apply to_limbs_ok|].
    apply limbs_ok_cons; [lia|]. split; cbn; auto. }
  assert (Ep0 : eval p0 = eval b * a0).
  { unfold p0. rewrite eval_app, to_limbs_length. cbn [eval]. rewrite <- Hlo at 3. ring. }
  assert (Hi0 : inv_row (eval p0)) by (rewrite Ep0; unfold inv_row; nia).
  destruct (p_opt P) eqn:Eo.
  - pose proof (zk_opt _ _ OK Eo) as Hopt.
    destruct (mmul_loop_opt_spec b (tl a) p0 Hopt Hb Hbq HF Hp0 Hi0) as (Hpf & Hif & Hmod).
    destruct (reduce_row_spec _ Hpf) as (m & p' & c1 & -> & Hm & Htl & Hc1 & Heq).
    pose proof (row_t _ m _ Hif Hm Heq) as Ht.
    pose proof (eval_bound _ _ Htl).
    assert (c1 = 0) by nia. subst c1.
    destruct (final_sub_spec false (tl p') 0 Htl) as [H1 H2]; try lia.
    split; [exact H1|]. rewrite H2. split; [apply Z.mod_pos_bound; lia|].
    eapply finish_mod; [exact Heq|]. rewrite <- Hlen, Hmod, Ep0, Hev. f_equal. ring.
  - destruct (mmul_loop_spec b (tl a) p0 0) as (p & c & -> & Hpf & Hcf & Hif & Hmod); auto; try lia.
    { rewrite Z.mul_0_r, Z.add_0_r; auto. }
    destruct (reduce_row_spec _ Hpf) as (m & p' & c1 & -> & Hm & Htl & Hc1 & Heq).
    assert (Heq' : B * (eval (tl p') + R * (c + c1)) = eval p + B ^ Z.of_nat (S n) * c + q * m).
    { rewrite Bpow_S. lia. }
    pose proof (row_t _ m _ Hif Hm Heq') as Ht.
    pose proof (eval_bound _ _ Htl).
    assert (c + c1 <= 1) by nia.
    destruct (final_sub_spec (negb ((c + c1) mod B =? 0)) (tl p') (c + c1) Htl) as [H1 H2]; try lia.
    { rewrite Z.mod_small by lia. reflexivity. }
    split; [exact H1|]. rewrite H2. split; [apply Z.mod_pos_bound; lia|].
    eapply finish_mod; [exact Heq'|]. rewrite <- Hlen, Hmod, Ep0, Hev. f_equal. ring.
Qed.

Lemma set_zero_eval k i c : (i < k)%nat -> eval (set (repeat 0 k) i c) = c * B ^ Z.of_nat i.
Proof.
  intros. rewrite eval_set by (rewrite repeat_length; auto).
  rewrite eval_repeat0. unfold get. rewrite nth_repeat. ring.
Qed.

Lemma red_loop_spec k : forall p, limbs_ok (S n) p -> inv_row (eval p) ->
  limbs_ok (S n) (red_loop P k p) /\ inv_row (eval (red_loop P k p)) /\
  (B ^ Z.of_nat k * eval (red_loop P k p)) mod q = eval p mod q.
Proof.
  induction k as [|k IH]; intros p Hp Hi.
  - cbn [red_loop]. repeat split; auto; try apply Hp; try apply Hi.
    change (B ^ Z.of_nat 0) with 1. now rewrite Z.mul_1_l.
  - cbn [red_loop].
    destruct (reduce_row_spec _ Hp) as (m & p' & c1 & -> & Hm & Htl & Hc1 & Heq).
    pose proof (row_t _ m _ Hi Hm Heq) as Ht.
    pose proof (eval_bound _ _ Htl).
    pose proof (zk_n _ _ OK).
    set (t := eval (tl p') + R * c1) in *.
    assert (Hs : eval (set (repeat 0 (S n)) (if p_opt P then 1%nat else n) c1) + eval (tl p') = t).
    { rewrite set_zero_eval by (destruct (p_opt P); lia).
      destruct (p_opt P) eqn:Eo; [|unfold t; ring].
      pose proof (zk_opt _ _ OK Eo). assert (c1 = 0) by (unfold t in Ht; nia). unfold t; subst c1. ring. }
    unfold mpn_add; cbn [fst]. rewrite Hs.
    assert (HVe : eval (to_limbs (S n) t) = t).
    { apply eval_to_limbs_small. rewrite Bpow_S. nia. }
    destruct (IH (to_limbs (S n) t)) as (Hpf & Hif & Hmod).
    + apply to_limbs_ok.
    + rewrite HVe. unfold inv_row. nia.
    + repeat split; auto; try apply Hpf; try apply Hif.
      rewrite Bpow_S, <- Z.mul_assoc, <- Z.mul_mod_idemp_r, Hmod, HVe, Z.mul_mod_idemp_r by lia.
      rewrite Heq, Z.mul_comm, Z.mod_add by lia. reflexivity.
Qed.

Lemma red_spec p : limbs_ok (S n) p -> inv_row (eval p) ->
  let r := red_final P (red_loop P (n - 1) p) in
  limbs_ok n r /\ 0 <= eval r < q /\ (R * eval r) mod q = eval p mod q.
Proof.
  intros Hp Hi r. unfold r, red_final.
  destruct (red_loop_spec (n - 1) p Hp Hi) as (Hpf & Hif & Hmod).
  destruct (reduce_row_spec _ Hpf) as (m & p' & c1 & -> & Hm & Htl & Hc1 & Heq).
  pose proof (row_t _ m _ Hif Hm Heq) as Ht.
  pose proof (eval_bound _ _ Htl).
  destruct (final_sub_spec (if p_opt P then false else negb (c1 =? 0)) (tl p') c1 Htl) as [H1 H2]; try lia.
  { destruct (p_opt P) eqn:Eo; auto. pose proof (zk_opt _ _ OK Eo).
    assert (c1 = 0) by nia. subst; reflexivity. }
  split; [exact H1|]. rewrite H2. split; [apply Z.mod_pos_bound; lia|].
  eapply finish_mod; eauto.
Qed.

Theorem mmul1_spec a w : limbs_ok n a -> eval a < q -> 0 <= w < B ->
  limbs_ok n (mmul1 P a w) /\ 0 <= eval (mmul1 P a w) < q /\
  (R * eval (mmul1 P a w)) mod q = (eval a * w) mod q.
Proof.
  intros Ha Haq Hw. unfold mmul1, mpn_mul_1.
  pose proof (eval_bound _ _ Ha) as Hab.
  destruct (mul_split (eval a) w ltac:(lia) Hw) as [Hlo Hc2]. cbv zeta in Hlo, Hc2.
  set (p0 := to_limbs n (eval a * w) ++ [eval a * w / R]).
  assert (Hp0 : limbs_ok (S n) p0).
  { replace (S n) with (n + 1)%nat by lia. apply limbs_ok_app; [apply to_limbs_ok|].
    apply limbs_ok_cons; [lia|]. split; cbn; auto. }
  assert (Ep0 : eval p0 = eval a * w).
  { unfold p0. rewrite eval_app, to_limbs_length. cbn [eval]. rewrite <- Hlo at 3. ring. }
  rewrite <- Ep0. apply red_spec; auto. rewrite Ep0; unfold inv_row; nia.
Qed.

(** Any 64*n64-bit input is reduced correctly, not only those below q. *)
Theorem fromMont_spec a : limbs_ok n a ->
  limbs_ok n (fromMont P a) /\ 0 <= eval (fromMont P a) < q /\
  (R * eval (fromMont P a)) mod q = eval a mod q.
Proof.
  intros Ha. unfold fromMont.
  pose proof (eval_bound _ _ Ha) as Hab.
  assert (Hp0 : limbs_ok (S n) (a ++ [0])).
  { replace (S n) with (n + 1)%nat by lia. apply limbs_ok_app; [auto|].
    apply limbs_ok_cons; [lia|]. split; cbn; auto. }
  assert (Ep0 : eval (a ++ [0]) = eval a) by (rewrite eval_app; cbn [eval]; ring).
  rewrite <- Ep0. apply red_spec; auto. rewrite Ep0. unfold inv_row.
  pose proof (zk_lo _ _ OK). pose proof (zk_n _ _ OK).
  replace R with (B ^ (Z.of_nat n - 1) * B) in Hab; [nia|].
  rewrite Z.mul_comm, <- Z.pow_succ_r by lia. f_equal. lia.
Qed.

(** Uniqueness of the quotient by R modulo q. *)
Lemma R_cancel x y : (R * x) mod q = (R * y) mod q -> x mod q = y mod q.
Proof.
  intros H.
  assert (Hd : (q | R * (x - y))).
  { rewrite Z.mul_sub_distr_l. apply Z.mod_divide; [lia|].
    rewrite Zminus_mod, H, Z.sub_diag. apply Z.mod_0_l; lia. }
  apply Z.gauss in Hd; [|apply (q_R_coprime q P OK)].
  destruct Hd as [k Hk]. replace x with (y + k * q) by lia. apply Z.mod_add; lia.
Qed.
Lemma R_cancel_small x y : 0 <= x < q -> 0 <= y < q -> (R * x) mod q = (R * y) mod q -> x = y.
Proof. intros Hx Hy H. apply R_cancel in H. rewrite !Z.mod_small in H by lia. auto. Qed.

End Mont.
