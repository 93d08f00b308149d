(** A polynomial has at most as many roots as its degree; quadratic
    non-residues exist. *)
From Coq Require Import ZArith Znumtheory List Bool Lia Ring Arith.
From Verif Require Import Tower Zp FftAlg.
Import ListNotations.
Ltac Zify.zify_post_hook ::= idtac.

Section Poly.
Variable K : rng.
Add Ring Kr : (r_th K).
Hypothesis HF : is_field K.
Notation "x +k y" := (radd x y) (at level 50, left associativity). Notation "x *k y" := (rmul x y) (at level 40, left associativity).
Notation "x -k y" := (rsub x y) (at level 50, left associativity).
(** monic polynomials: [l] lists the coefficients below the leading 1, highest first *)
Fixpoint horner (l : list K) (acc x : K) : K := match l with [] => acc | c :: l => horner l (acc *k x +k c) x end.
(** quotient by (X - a): running values of Horner's scheme *)
Fixpoint quot (l : list K) (acc a : K) : list K := match l with [] => [] | [c] => [] | c :: l => (acc *k a +k c) :: quot l (acc *k a +k c) a end.
Lemma horner_div l : forall acc a x, l <> [] -> horner l acc x = (x -k a) *k horner (quot l acc a) acc x +k horner l acc a.
Proof.
  assert (D : forall l u v x, horner l (u +k v) x = horner l u x +k (v *k kpow K x (length l))).
  { clear l. induction l as [|c l IH]; intros u v x; cbn [horner length kpow]; [ring|]. replace ((u +k v) *k x +k c) with ((u *k x +k c) +k (v *k x)) by ring. rewrite IH. ring. }
  induction l as [|c l IH]; intros acc a x N; [congruence|]. destruct l as [|d l].
  - cbn. ring.
  - cbn [horner]. cbn [horner] in IH. change (quot (c :: d :: l) acc a) with ((acc *k a +k c) :: quot (d :: l) (acc *k a +k c) a). cbn [horner].
    assert (LQ : length (quot (d :: l) (acc *k a +k c) a) = length l). { clear. generalize (acc *k a +k c). revert d. induction l as [|e l IH]; intros d u; [reflexivity|]. change (quot (d :: e :: l) u a) with ((u *k a +k d) :: quot (e :: l) (u *k a +k d) a). cbn [length]. rewrite IH. reflexivity. }
    pose proof (IH (acc *k a +k c) a x ltac:(discriminate)) as E.
    replace ((acc *k x +k c) *k x +k d) with (((acc *k a +k c) *k x +k d) +k ((x -k a) *k acc *k x)) by ring. rewrite D, E.
    replace (acc *k x +k (acc *k a +k c)) with ((acc *k a +k c) +k (acc *k x)) by ring. rewrite (D _ (acc *k a +k c) (acc *k x)), LQ. ring.
Qed.
Lemma quot_length l : forall acc a, length (quot l acc a) = length l - 1.
Proof.
  induction l as [|c l IH]; intros acc a; [reflexivity|]. destruct l as [|d l]; [reflexivity|].
  change (quot (c :: d :: l) acc a) with ((acc *k a +k c) :: quot (d :: l) (acc *k a +k c) a). cbn [length]. rewrite IH. cbn [length]. lia.
Qed.
Theorem roots_bound : forall n l rs, length l = n -> NoDup rs -> (forall r, In r rs -> horner l r1 r = r0) -> length rs <= n.
Proof.
  induction n as [|n IH]; intros l rs L ND H.
  - destruct l; [|discriminate]. destruct rs as [|r rs]; [cbn; lia|]. exfalso. apply (proj1 HF). apply (H r). left. reflexivity.
  - destruct rs as [|r rs]; [cbn; lia|]. inversion ND as [|? ? NI ND']; subst. cbn [length]. apply le_n_S. apply (IH (quot l r1 r)); [rewrite quot_length; lia|exact ND'|].
    intros x Hx. assert (E := horner_div l r1 r x). rewrite (H x), (H r) in E; [|left; reflexivity|right; exact Hx]. specialize (E ltac:(intros ->; discriminate)).
    assert (E' : (x -k r) *k horner (quot l r1 r) r1 x = r0). { transitivity ((x -k r) *k horner (quot l r1 r) r1 x +k r0); [ring|symmetry; exact E]. } 
    { apply (no_zero_div K HF) in E'. destruct E' as [E'|E']; [|exact E']. exfalso. apply NI. replace r with x; [exact Hx|]. transitivity ((x -k r) +k r); [ring|]. rewrite E'. ring. }
Qed.
Lemma horner_xn d : forall acc x, horner (repeat r0 d) acc x = acc *k kpow K x d.
Proof. induction d as [|d IH]; intros acc x; cbn [repeat horner kpow]; [ring|]. rewrite IH. ring. Qed.
(** X^d - 1 *)
Lemma unity_bound d rs : 0 < d -> NoDup rs -> (forall r, In r rs -> kpow K r d = r1) -> length rs <= d.
Proof.
  intros Hd ND H. apply (roots_bound d (repeat r0 (d - 1) ++ [ropp r1])); [rewrite app_length, repeat_length; cbn; lia|exact ND|].
  intros r Hr. assert (A : forall l acc c, horner (l ++ [c]) acc r = horner l acc r *k r +k c). { clear. induction l as [|e l IH]; intros acc c; cbn [app horner]; [reflexivity|apply IH]. }
  rewrite A, horner_xn. specialize (H r Hr). replace d with (S (d - 1)) in H by lia. cbn [kpow] in H. 
  assert (E : (r1 *k kpow K r (d - 1)) *k r = r1) by (rewrite <- H at 2; ring). rewrite E. ring.
Qed.
End Poly.

Section Nqr.
Variable q : Z.
Hypothesis Hq : (1 < q)%Z.
Lemma zv_kpow (x : Zp q Hq) n : zv (kpow (Zp q Hq) x n) = (zv x ^ Z.of_nat n mod q)%Z.
Proof.
  induction n as [|n IH]; [reflexivity|]. rewrite Nat2Z.inj_succ, Z.pow_succ_r by lia. change (zv (kpow (Zp q Hq) x (S n))) with ((zv x * zv (kpow (Zp q Hq) x n)) mod q)%Z. rewrite IH.
  rewrite Zmult_mod_idemp_r. reflexivity.
Qed.
Theorem nqr_exists : prime q -> (2 < q)%Z -> exists x, (2 <= x < q)%Z /\ (x ^ ((q - 1) / 2) mod q <> 1)%Z.
Proof.
  intros P H2. set (d := Z.to_nat ((q - 1) / 2)). assert (Hd : (0 < (q - 1) / 2)%Z) by (apply Z.div_str_pos; lia).
  destruct (forallb (fun i => (Z.of_nat i ^ ((q - 1) / 2) mod q =? 1)%Z) (seq 1 (Z.to_nat (q - 1)))) eqn:E.
  - exfalso. rewrite forallb_forall in E. set (rs := map (fun i => tozp q Hq (Z.of_nat i)) (seq 1 (Z.to_nat (q - 1)))).
    assert (L : length rs <= d).
    { apply (unity_bound (Zp q Hq) (Zp_field q Hq P)); [unfold d; lia| |].
      - unfold rs. assert (G : forall l, NoDup l -> (forall i, In i l -> (Z.of_nat i < q)%Z) -> NoDup (map (fun i => tozp q Hq (Z.of_nat i)) l)).
        { clear. induction l as [|i l IH]; intros ND H; [constructor|]. inversion ND as [|? ? NI ND']; subst. cbn [map]. constructor; [|apply IH; [exact ND'|intros; apply H; right; assumption]].
          intros Hi. apply in_map_iff in Hi. destruct Hi as (j & Ej & Hj). apply NI. replace i with j; [exact Hj|]. apply (f_equal zv) in Ej. cbn in Ej. rewrite !Z.mod_small in Ej; [lia| |]; (split; [lia|]); apply H; [left; reflexivity|right; exact Hj]. }
        apply G; [apply seq_NoDup|]. intros i Hi. apply in_seq in Hi. lia.
      - intros r Hr. unfold rs in Hr. apply in_map_iff in Hr. destruct Hr as (i & <- & Hi). apply zp_eq. rewrite zv_kpow. cbn [zv tozp]. change (zv (r1 : Zp q Hq)) with (1 mod q)%Z. rewrite (Z.mod_small 1) by lia.
        specialize (E i Hi). apply Z.eqb_eq in E. apply in_seq in Hi. rewrite (Z.mod_small (Z.of_nat i)) by lia. unfold d. rewrite Z2Nat.id by lia. exact E. }
    unfold rs in L. rewrite map_length, seq_length in L. unfold d in L. pose proof (Z.mul_div_le (q - 1) 2 ltac:(lia)). lia.
  - assert (X : exists i, In i (seq 1 (Z.to_nat (q - 1))) /\ (Z.of_nat i ^ ((q - 1) / 2) mod q =? 1)%Z = false).
    { clear - E. induction (seq 1 (Z.to_nat (q - 1))) as [|i l IH]; [discriminate|]. cbn [forallb] in E. destruct (Z.of_nat i ^ ((q - 1) / 2) mod q =? 1)%Z eqn:Ei; [|exists i; split; [left; reflexivity|exact Ei]].
      destruct (IH E) as (j & Hj & Ej). exists j. split; [right; exact Hj|exact Ej]. }
    destruct X as (i & Hi & Ei). apply in_seq in Hi. apply Z.eqb_neq in Ei. exists (Z.of_nat i). split; [|exact Ei]. split; [|lia].
    destruct (Nat.eq_dec i 1) as [->|]; [|lia]. exfalso. apply Ei. change (Z.of_nat 1) with 1%Z. rewrite Z.pow_1_l by lia. apply Z.mod_small. lia.
Qed.
End Nqr.
