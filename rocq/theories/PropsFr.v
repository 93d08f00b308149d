(** Properties C08-C20: tagged field elements of the portable implementation. *)
From Coq Require Import ZArith List Lia Bool.
From Verif Require Import Limbs Gen GenFacts Raw Spec Instances Fr FrSpec FrFacts FrFacts2 FrFacts3 FrProg FrProgFacts FrInst.
Import ListNotations.
Open Scope Z_scope.

Ltac elt_tac := apply eltb_true; vm_compute; reflexivity.
Ltac nelt_tac := apply eltb_false; vm_compute; reflexivity.

(** Six elements of the 254-bit field in all four representations. *)
Definition mE : mem := mem3 4
  [eS 0; eS (-7); eSM bn_r 4 (-2147483648); eL (bn_r - 5); eLM bn_r 4 (bn_r - 2); eL (2 ^ 200 + 3); eS 2147483647].

(** ** C08: addition *)
Theorem C08_add : forall q P, 2 ^ 32 < q -> build q = Some P -> forall r a b m x y,
  typed (p_n64 P) m -> usr r -> usr a -> usr b -> r <> a -> r <> b ->
  elt q (p_n64 P) m a x -> elt q (p_n64 P) m b y ->
  yields q (p_n64 P) r m (Fr_add P r a b m) ((x + y) mod q).
Proof.
  intros q P Hq HP r a b m x y Ht Hr Ha Hb Hra Hrb.
  exact (Fr_add_spec q P (build_ok q P ltac:(lia) HP) Hq r a b m x y Ht Hr Ha Hb (distinct_add r a b m Hra Hrb)).
Qed.
Print Assumptions C08_add.

Example C08_hyp : typed (p_n64 bn_P) mE /\ usr (U 0) /\ elt bn_r (p_n64 bn_P) mE (U 1) (bn_r - 7) /\
  elt bn_r (p_n64 bn_P) mE (U 2) (bn_r - 2147483648) /\ elt bn_r (p_n64 bn_P) mE (U 3) (bn_r - 5) /\
  elt bn_r (p_n64 bn_P) mE (U 4) (bn_r - 2) /\ 2 ^ 62 < bn_r /\ build bn_r = Some bn_P.
Proof.
  split; [apply mem3_typed|]. split; [exact I|]. do 4 (split; [elt_tac|]). split; [reflexivity|exact bn_build].
Qed.
Example C08_run : elt bn_r 4 (Fr_add bn_P (U 0) (U 1) (U 4) mE) (U 0) (bn_r - 9).
Proof. elt_tac. Qed.

(** ** C09: subtraction *)
Theorem C09_sub : forall q P, 2 ^ 32 < q -> build q = Some P -> forall r a b m x y,
  typed (p_n64 P) m -> usr r -> usr a -> usr b -> r <> a -> r <> b ->
  elt q (p_n64 P) m a x -> elt q (p_n64 P) m b y ->
  yields q (p_n64 P) r m (Fr_sub P r a b m) ((x - y) mod q).
Proof.
  intros q P Hq HP r a b m x y Ht Hr Ha Hb Hra Hrb.
  exact (Fr_sub_spec q P (build_ok q P ltac:(lia) HP) Hq r a b m x y Ht Hr Ha Hb (distinct_sub r a b m Hra Hrb)).
Qed.
Print Assumptions C09_sub.
Example C09_run : elt bn_r 4 (Fr_sub bn_P (U 0) (U 1) (U 3) mE) (U 0) (bn_r - 2).
Proof. elt_tac. Qed.

(** ** C10: multiplication and squaring, any aliasing *)
Theorem C10_mul : forall q P, 2 ^ 62 < q -> build q = Some P -> forall r a b m x y,
  typed (p_n64 P) m -> elt q (p_n64 P) m a x -> elt q (p_n64 P) m b y ->
  yields q (p_n64 P) r m (Fr_mul P r a b m) ((x * y) mod q).
Proof. intros q P Hq HP r a b m x y. exact (Fr_mul_spec q P (build_ok q P ltac:(lia) HP) r a b m x y Hq). Qed.
Print Assumptions C10_mul.
Theorem C10_square : forall q P, 2 ^ 62 < q -> build q = Some P -> forall r a m x,
  typed (p_n64 P) m -> elt q (p_n64 P) m a x ->
  yields q (p_n64 P) r m (Fr_square P r a m) ((x * x) mod q).
Proof. intros q P Hq HP r a m x. exact (Fr_square_spec q P (build_ok q P ltac:(lia) HP) r a m x Hq). Qed.
Print Assumptions C10_square.
Example C10_run : elt bn_r 4 (Fr_mul bn_P (U 2) (U 2) (U 3) mE) (U 2) (5 * 2147483648).
Proof. elt_tac. Qed.

(** For a modulus of at most 62 bits the product of two short operands can be
    stored unreduced. *)
Definition small_q : Z := 1099511627791. (* 2^40 + 15 *)
Definition small_P : zq := Eval vm_compute in force (build small_q).
Theorem C10_small_modulus_refuted : exists q P r a b m x y,
  2 ^ 32 < q /\ build q = Some P /\ typed (p_n64 P) m /\ elt q (p_n64 P) m a x /\ elt q (p_n64 P) m b y /\
  ~ elt q (p_n64 P) (Fr_mul P r a b m) r ((x * y) mod q).
Proof.
  exists small_q, small_P, (U 2), (U 0), (U 1), (mem3 1 [eS 2147483647; eS 2147483646]), 2147483647, 2147483646.
  split; [reflexivity|]. split; [vm_compute; reflexivity|]. split; [apply mem3_typed|].
  split; [elt_tac|]. split; [elt_tac|]. nelt_tac.
Qed.

(** ** C11: negation, any aliasing *)
Theorem C11_neg : forall q P, 2 ^ 32 < q -> build q = Some P -> forall r a m x,
  typed (p_n64 P) m -> elt q (p_n64 P) m a x ->
  yields q (p_n64 P) r m (Fr_neg P r a m) ((- x) mod q).
Proof. intros q P Hq HP. exact (Fr_neg_spec q P (build_ok q P ltac:(lia) HP) Hq). Qed.
Print Assumptions C11_neg.
Example C11_run : elt bn_r 4 (Fr_neg bn_P (U 2) (U 2) mE) (U 2) 2147483648.
Proof. elt_tac. Qed.

(** ** C12: conversions *)
Theorem C12_toNormal : forall q P, 1 < q -> build q = Some P -> forall r a m x,
  typed (p_n64 P) m -> elt q (p_n64 P) m a x ->
  yields q (p_n64 P) r m (Fr_toNormal P r a m) x /\
  mt (Fr_toNormal P r a m) r <> LONGMONTGOMERY /\
  isLong (mt (Fr_toNormal P r a m) r) = isLong (mt m a).
Proof.
  intros q P Hq HP r a m x Ht Hx.
  destruct (toNormal_spec q P (build_ok q P Hq HP) r a m x Ht Hx) as (H1 & H2 & H3 & H4 & _ & H5).
  exact (conj (chgs_yields q P r m _ x H1 H3 H2) (conj H4 H5)).
Qed.
Print Assumptions C12_toNormal.
Theorem C12_toLongNormal : forall q P, 2 ^ 32 < q -> build q = Some P -> forall r a m x,
  typed (p_n64 P) m -> elt q (p_n64 P) m a x ->
  yields q (p_n64 P) r m (Fr_toLongNormal P r a m) x /\ mt (Fr_toLongNormal P r a m) r = LONG.
Proof.
  intros q P Hq HP r a m x Ht Hx.
  destruct (toLongNormal_spec q P (build_ok q P ltac:(lia) HP) Hq r a m x Ht Hx) as (H1 & H2 & H3 & H4 & _).
  exact (conj (chgs_yields q P r m _ x H1 H3 H2) H4).
Qed.
Print Assumptions C12_toLongNormal.

(** Full claim for toMontgomery: the result denotes x whatever r contained.
    It is false for short operands (see the refutation below); what is missing
    in this theorem is the case of a short non-Montgomery source with a
    destination whose shortVal differs. *)
Theorem C12_toMontgomery_partial : forall q P, 1 < q -> build q = Some P -> forall r a m x,
  typed (p_n64 P) m -> elt q (p_n64 P) m a x ->
  (r = a \/ mt m a <> SHORT \/ ms m r = ms m a) ->
  yields q (p_n64 P) r m (Fr_toMontgomery P r a m) x /\ isMont (mt (Fr_toMontgomery P r a m) r) = true.
Proof.
  intros q P Hq HP r a m x Ht Hx Hor.
  destruct (toMontgomery_spec q P (build_ok q P Hq HP) r a m x Ht Hx) as (H1 & H2 & H3 & _ & _ & H4).
  split; [|exact H3]. apply chgs_yields; [exact H1|exact H2|]. apply H4.
  destruct (elt_type _ _ _ _ _ Hx) as [E|[E|[E|E]]]; rewrite E in *; tauto.
Qed.
Print Assumptions C12_toMontgomery_partial.
(** In every case the Montgomery limbs themselves are right. *)
Theorem C12_toMontgomery_limbs : forall q P, 1 < q -> build q = Some P -> forall r a m x,
  typed (p_n64 P) m -> elt q (p_n64 P) m a x ->
  holds q (p_n64 P) (ml (Fr_toMontgomery P r a m)) r ((x * Rad (p_n64 P)) mod q).
Proof.
  intros q P Hq HP r a m x Ht Hx.
  exact (proj1 (proj2 (proj2 (proj2 (proj2 (toMontgomery_spec q P (build_ok q P Hq HP) r a m x Ht Hx)))))).
Qed.
Print Assumptions C12_toMontgomery_limbs.
(** The previous shortVal of the destination survives: 5 becomes 99. *)
Theorem C12_toMontgomery_stale_refuted : exists q P r a m x,
  2 ^ 62 < q /\ build q = Some P /\ typed (p_n64 P) m /\ usr r /\ usr a /\ r <> a /\
  elt q (p_n64 P) m a x /\ ~ elt q (p_n64 P) (Fr_toMontgomery P r a m) r x /\
  Fr_toInt P r (Fr_toMontgomery P r a m) = Some 99.
Proof.
  exists bn_r, bn_P, (U 0), (U 1), (mem3 4 [eL 17; eS 5]), 5.
  split; [reflexivity|]. split; [exact bn_build|]. split; [apply mem3_typed|].
  split; [exact I|]. split; [exact I|]. split; [discriminate|]. split; [elt_tac|]. split; [nelt_tac|].
  vm_compute; reflexivity.
Qed.
Example C12_run : elt bn_r 4 (Fr_toMontgomery bn_P (U 0) (U 3) mE) (U 0) (bn_r - 5).
Proof. elt_tac. Qed.

(** ** C13: order of signed representatives *)
Theorem C13_order : forall q P, 2 ^ 32 < q -> build q = Some P -> forall r a b m x y,
  typed (p_n64 P) m -> usr a -> usr b -> elt q (p_n64 P) m a x -> elt q (p_n64 P) m b y ->
  yields q (p_n64 P) r m (Fr_lt P r a b m) (Z.b2z (signed q x <? signed q y)) /\
  yields q (p_n64 P) r m (Fr_gt P r a b m) (Z.b2z (signed q x >? signed q y)) /\
  yields q (p_n64 P) r m (Fr_leq P r a b m) (Z.b2z (signed q x <=? signed q y)) /\
  yields q (p_n64 P) r m (Fr_geq P r a b m) (Z.b2z (signed q x >=? signed q y)).
Proof.
  intros q P Hq HP r a b m x y Ht Ha Hb Hx Hy. set (OK := build_ok q P ltac:(lia) HP).
  exact (conj (Fr_lt_spec q P OK Hq r a b m x y Ht Ha Hb Hx Hy)
        (conj (Fr_gt_spec q P OK Hq r a b m x y Ht Ha Hb Hx Hy)
        (conj (Fr_leq_spec q P OK Hq r a b m x y Ht Ha Hb Hx Hy)
              (Fr_geq_spec q P OK Hq r a b m x y Ht Ha Hb Hx Hy)))).
Qed.
Print Assumptions C13_order.
(** consistent with equality: equal signed representatives are equal values *)
Theorem C13_antisym : forall q x y, 2 ^ 32 < q -> 0 <= x < q -> 0 <= y < q -> (signed q x = signed q y <-> x = y).
Proof. intros q x y Hq Hx Hy. split; [exact (signed_inj q Hq x y Hx Hy)|intros ->; reflexivity]. Qed.
Print Assumptions C13_antisym.
Example C13_run : elt bn_r 4 (Fr_lt bn_P (U 3) (U 3) (U 5) mE) (U 3) 1 /\ elt bn_r 4 (Fr_lt bn_P (U 0) (U 4) (U 2) mE) (U 0) 0.
Proof. split; elt_tac. Qed.

(** ** C14: equality *)
Theorem C14_eq : forall q P, 2 ^ 32 < q -> build q = Some P -> forall r a b m x y,
  typed (p_n64 P) m -> usr a -> usr b -> elt q (p_n64 P) m a x -> elt q (p_n64 P) m b y ->
  yields q (p_n64 P) r m (Fr_eq P r a b m) (Z.b2z (x =? y)) /\
  yields q (p_n64 P) r m (Fr_neq P r a b m) (Z.b2z (negb (x =? y))).
Proof.
  intros q P Hq HP r a b m x y Ht Ha Hb Hx Hy. set (OK := build_ok q P ltac:(lia) HP).
  exact (conj (Fr_eq_spec q P OK Hq r a b m x y Ht Ha Hb Hx Hy) (Fr_neq_spec q P OK Hq r a b m x y Ht Ha Hb Hx Hy)).
Qed.
Print Assumptions C14_eq.
Example C14_run : elt bn_r 4 (Fr_eq bn_P (U 0) (U 0) (U 1) (mem3 4 [eS (-3); eLM bn_r 4 (bn_r - 3)])) (U 0) 1.
Proof. elt_tac. Qed.

(** ** C15: logic *)
Theorem C15_logic : forall q P, 2 ^ 32 < q -> build q = Some P -> forall r a b m x y,
  typed (p_n64 P) m -> elt q (p_n64 P) m a x -> elt q (p_n64 P) m b y ->
  yields q (p_n64 P) r m (Fr_land r a b m) (Z.b2z (negb (x =? 0) && negb (y =? 0))) /\
  yields q (p_n64 P) r m (Fr_lor r a b m) (Z.b2z (negb (x =? 0) || negb (y =? 0))) /\
  yields q (p_n64 P) r m (Fr_lnot r a m) (Z.b2z (x =? 0)) /\
  Fr_isTrue a m = Z.b2z (negb (x =? 0)).
Proof.
  intros q P Hq HP r a b m x y Ht Hx Hy. set (OK := build_ok q P ltac:(lia) HP).
  exact (conj (Fr_land_spec q P OK Hq r a b m x y Ht Hx Hy)
        (conj (Fr_lor_spec q P OK Hq r a b m x y Ht Hx Hy)
        (conj (Fr_lnot_spec q P OK Hq r a m x Ht Hx) (Fr_isTrue_spec q P OK Hq a m x Hx)))).
Qed.
Print Assumptions C15_logic.
Example C15_run : Fr_isTrue (U 0) mE = 0 /\ Fr_isTrue (U 4) mE = 1.
Proof. split; vm_compute; reflexivity. Qed.

(** ** C16: bit operations *)
Theorem C16_bits : forall q P, 2 ^ 32 < q -> build q = Some P -> forall r a b m x y,
  typed (p_n64 P) m -> usr r -> usr a -> usr b -> r <> a -> r <> b ->
  elt q (p_n64 P) m a x -> elt q (p_n64 P) m b y ->
  yields q (p_n64 P) r m (Fr_band P r a b m) ((Z.land x y mod 2 ^ bitlen q) mod q) /\
  yields q (p_n64 P) r m (Fr_bor P r a b m) ((Z.lor x y mod 2 ^ bitlen q) mod q) /\
  yields q (p_n64 P) r m (Fr_bxor P r a b m) ((Z.lxor x y mod 2 ^ bitlen q) mod q).
Proof.
  intros q P Hq HP r a b m x y Ht Hr Ha Hb Hra Hrb Hx Hy. set (OK := build_ok q P ltac:(lia) HP).
  pose (D := distinct_bit r a b m Hra Hrb).
  exact (conj (Fr_band_spec q P OK Hq r a b m x y Ht Hr Ha Hb D Hx Hy)
        (conj (Fr_bor_spec q P OK Hq r a b m x y Ht Hr Ha Hb D Hx Hy)
              (Fr_bxor_spec q P OK Hq r a b m x y Ht Hr Ha Hb D Hx Hy))).
Qed.
Print Assumptions C16_bits.
Theorem C16_bnot : forall q P, 2 ^ 32 < q -> build q = Some P -> forall r a m x,
  typed (p_n64 P) m -> usr r -> usr a -> r <> a -> elt q (p_n64 P) m a x ->
  yields q (p_n64 P) r m (Fr_bnot P r a m) ((Z.lnot x mod 2 ^ bitlen q) mod q).
Proof.
  intros q P Hq HP r a m x Ht Hr Ha Hra. set (OK := build_ok q P ltac:(lia) HP).
  exact (Fr_bnot_spec q P OK Hq r a m x Ht Hr Ha (fun E => False_ind _ (Hra E))).
Qed.
Print Assumptions C16_bnot.
Example C16_run : elt bn_r 4 (Fr_bxor bn_P (U 0) (U 1) (U 4) mE) (U 0) (Z.lxor (bn_r - 7) (bn_r - 2)).
Proof. elt_tac. Qed.

(** ** C17: shifts *)
Theorem C17_shl : forall q P, 2 ^ 32 < q -> bitlen q < 2 ^ 64 -> build q = Some P -> forall r a b m x y,
  typed (p_n64 P) m -> usr r -> usr a -> usr b -> r <> a -> r <> b ->
  elt q (p_n64 P) m a x -> elt q (p_n64 P) m b y ->
  yields q (p_n64 P) r m (Fr_shl P r a b m) (shift_val q (shl_val q) shr_val x y).
Proof.
  intros q P Hq Hb64 HP r a b m x y Ht Hr Ha Hb Hra Hrb Hx Hy. set (OK := build_ok q P ltac:(lia) HP).
  exact (Fr_shl_spec q P OK Hq (Qb' q P OK Hb64) r a b m x y Ht Hr Ha Hb Hx Hy (fun _ E => False_ind _ (Hra E))).
Qed.
Print Assumptions C17_shl.
Theorem C17_shr : forall q P, 2 ^ 32 < q -> bitlen q < 2 ^ 64 -> build q = Some P -> forall r a b m x y,
  typed (p_n64 P) m -> usr r -> usr a -> usr b -> r <> a -> r <> b ->
  elt q (p_n64 P) m a x -> elt q (p_n64 P) m b y ->
  yields q (p_n64 P) r m (Fr_shr P r a b m) (shift_val q shr_val (shl_val q) x y).
Proof.
  intros q P Hq Hb64 HP r a b m x y Ht Hr Ha Hb Hra Hrb Hx Hy. set (OK := build_ok q P ltac:(lia) HP).
  exact (Fr_shr_spec q P OK Hq (Qb' q P OK Hb64) r a b m x y Ht Hr Ha Hb Hx Hy (fun _ E => False_ind _ (Hra E))).
Qed.
Print Assumptions C17_shr.
Example C17_hyp : bitlen bn_r < 2 ^ 64. Proof. reflexivity. Qed.
Example C17_run : elt bn_r 4 (Fr_shl bn_P (U 0) (U 5) (U 1) mE) (U 0) (2 ^ 193) /\
  elt bn_r 4 (Fr_shr bn_P (U 0) (U 5) (U 1) mE) (U 0) (2 ^ 207 + 3 * 2 ^ 7).
Proof. split; elt_tac. Qed.

(** ** C18: integer conversion *)
(** Every element that is a 32-bit integer is converted exactly.  The other half of
    the claim (no wrong integer is ever returned) only holds for one-limb moduli. *)
Theorem C18_toInt_exact_partial : forall q P, 2 ^ 32 < q -> build q = Some P -> forall a m x v,
  typed (p_n64 P) m -> usr a -> elt q (p_n64 P) m a x -> is_int32 v -> x = v mod q ->
  Fr_toInt P a m = Some v.
Proof. intros q P Hq HP. exact (Fr_toInt_exact q P (build_ok q P ltac:(lia) HP) Hq). Qed.
Print Assumptions C18_toInt_exact_partial.
Theorem C18_toInt_sound_one_limb_partial : forall q P, 2 ^ 32 < q -> build q = Some P -> forall a m x v,
  p_n64 P = 1%nat -> typed (p_n64 P) m -> usr a -> elt q (p_n64 P) m a x ->
  Fr_toInt P a m = Some v -> is_int32 v /\ x = v mod q.
Proof. intros q P Hq HP. exact (Fr_toInt_sound_one_limb q P (build_ok q P ltac:(lia) HP) Hq). Qed.
Print Assumptions C18_toInt_sound_one_limb_partial.
(** For any modulus a returned integer is right modulo 2^64 only. *)
Theorem C18_toInt_mod64_partial : forall q P, 2 ^ 32 < q -> build q = Some P -> forall a m x v,
  typed (p_n64 P) m -> usr a -> elt q (p_n64 P) m a x -> Fr_toInt P a m = Some v ->
  is_int32 v /\ (v mod 2 ^ 64 = x mod 2 ^ 64 \/ v mod 2 ^ 64 = (x - q) mod 2 ^ 64).
Proof. intros q P Hq HP. exact (Fr_toInt_mod64 q P (build_ok q P ltac:(lia) HP) Hq). Qed.
Print Assumptions C18_toInt_mod64_partial.
(** q - 1 - 2^64 is reported as -1. *)
Theorem C18_toInt_refuted : exists q P a m x v,
  2 ^ 62 < q /\ build q = Some P /\ typed (p_n64 P) m /\ usr a /\ elt q (p_n64 P) m a x /\
  Fr_toInt P a m = Some v /\ v mod q <> x.
Proof.
  exists bn_r, bn_P, (U 0), (mem3 4 [eL (bn_r - 1 - 2 ^ 64)]), (bn_r - 1 - 2 ^ 64), (-1).
  split; [reflexivity|]. split; [exact bn_build|]. split; [apply mem3_typed|]. split; [exact I|].
  split; [elt_tac|]. split; [vm_compute; reflexivity|]. vm_compute; discriminate.
Qed.
Print Assumptions C18_toInt_refuted.
Example C18_run : Fr_toInt bn_P (U 3) mE = Some (-5) /\ Fr_toInt bn_P (U 5) mE = None /\ Fr_toInt bn_P (U 4) mE = Some (-2).
Proof. repeat split; vm_compute; reflexivity. Qed.
Example C18_one_limb : p_n64 gold_P = 1%nat /\ 2 ^ 32 < gold_q. Proof. split; reflexivity. Qed.

(** ** C19: in-place use *)
Theorem C19_add_partial : forall q P, 2 ^ 32 < q -> build q = Some P -> forall r a b m x y,
  typed (p_n64 P) m -> usr r -> usr a -> usr b -> add_alias_ok r a b m ->
  elt q (p_n64 P) m a x -> elt q (p_n64 P) m b y ->
  yields q (p_n64 P) r m (Fr_add P r a b m) ((x + y) mod q).
Proof. intros q P Hq HP. exact (Fr_add_spec q P (build_ok q P ltac:(lia) HP) Hq). Qed.
Print Assumptions C19_add_partial.
Theorem C19_sub_partial : forall q P, 2 ^ 32 < q -> build q = Some P -> forall r a b m x y,
  typed (p_n64 P) m -> usr r -> usr a -> usr b -> sub_alias_ok r a b m ->
  elt q (p_n64 P) m a x -> elt q (p_n64 P) m b y ->
  yields q (p_n64 P) r m (Fr_sub P r a b m) ((x - y) mod q).
Proof. intros q P Hq HP. exact (Fr_sub_spec q P (build_ok q P ltac:(lia) HP) Hq). Qed.
Print Assumptions C19_sub_partial.
Theorem C19_bits_partial : forall q P, 2 ^ 32 < q -> build q = Some P -> forall r a b m x y,
  typed (p_n64 P) m -> usr r -> usr a -> usr b -> bit_alias_ok r a b m ->
  elt q (p_n64 P) m a x -> elt q (p_n64 P) m b y ->
  yields q (p_n64 P) r m (Fr_band P r a b m) ((Z.land x y mod 2 ^ bitlen q) mod q) /\
  yields q (p_n64 P) r m (Fr_bor P r a b m) ((Z.lor x y mod 2 ^ bitlen q) mod q) /\
  yields q (p_n64 P) r m (Fr_bxor P r a b m) ((Z.lxor x y mod 2 ^ bitlen q) mod q).
Proof.
  intros q P Hq HP r a b m x y Ht Hr Ha Hb D Hx Hy. set (OK := build_ok q P ltac:(lia) HP).
  exact (conj (Fr_band_spec q P OK Hq r a b m x y Ht Hr Ha Hb D Hx Hy)
        (conj (Fr_bor_spec q P OK Hq r a b m x y Ht Hr Ha Hb D Hx Hy)
              (Fr_bxor_spec q P OK Hq r a b m x y Ht Hr Ha Hb D Hx Hy))).
Qed.
Print Assumptions C19_bits_partial.
Theorem C19_bnot_partial : forall q P, 2 ^ 32 < q -> build q = Some P -> forall r a m x,
  typed (p_n64 P) m -> usr r -> usr a -> (r = a -> mt m a = LONG) -> elt q (p_n64 P) m a x ->
  yields q (p_n64 P) r m (Fr_bnot P r a m) ((Z.lnot x mod 2 ^ bitlen q) mod q).
Proof. intros q P Hq HP. exact (Fr_bnot_spec q P (build_ok q P ltac:(lia) HP) Hq). Qed.
Print Assumptions C19_bnot_partial.
Theorem C19_shl_partial : forall q P, 2 ^ 32 < q -> bitlen q < 2 ^ 64 -> build q = Some P -> forall r a b m x y,
  typed (p_n64 P) m -> usr r -> usr a -> usr b -> elt q (p_n64 P) m a x -> elt q (p_n64 P) m b y ->
  (y < bitlen q -> shl_alias_ok r a y m) ->
  yields q (p_n64 P) r m (Fr_shl P r a b m) (shift_val q (shl_val q) shr_val x y).
Proof.
  intros q P Hq Hb64 HP r a b m x y. set (OK := build_ok q P ltac:(lia) HP). rewrite <- (bits_eq q P OK).
  exact (Fr_shl_spec q P OK Hq (Qb' q P OK Hb64) r a b m x y).
Qed.
Print Assumptions C19_shl_partial.
Theorem C19_shr_partial : forall q P, 2 ^ 32 < q -> bitlen q < 2 ^ 64 -> build q = Some P -> forall r a b m x y,
  typed (p_n64 P) m -> usr r -> usr a -> usr b -> elt q (p_n64 P) m a x -> elt q (p_n64 P) m b y ->
  (q - y < bitlen q -> shl_alias_ok r a (q - y) m) ->
  yields q (p_n64 P) r m (Fr_shr P r a b m) (shift_val q shr_val (shl_val q) x y).
Proof.
  intros q P Hq Hb64 HP r a b m x y. set (OK := build_ok q P ltac:(lia) HP). rewrite <- (bits_eq q P OK).
  exact (Fr_shr_spec q P OK Hq (Qb' q P OK Hb64) r a b m x y).
Qed.
Print Assumptions C19_shr_partial.

(** The in-place claim is false for each of the operations. *)
Theorem C19_add_refuted : exists q P r b m x y,
  2 ^ 62 < q /\ build q = Some P /\ typed (p_n64 P) m /\ usr r /\ usr b /\
  elt q (p_n64 P) m r x /\ elt q (p_n64 P) m b y /\
  ~ elt q (p_n64 P) (Fr_add P r r b m) r ((x + y) mod q) /\
  ~ elt q (p_n64 P) (Fr_add P r b r m) r ((x + y) mod q) /\
  ~ elt q (p_n64 P) (Fr_sub P r r b m) r ((x - y) mod q).
Proof.
  exists bn_r, bn_P, (U 0), (U 1), (mem3 4 [eL 5; eLM bn_r 4 7]), 5, 7.
  split; [reflexivity|]. split; [exact bn_build|]. split; [apply mem3_typed|].
  split; [exact I|]. split; [exact I|]. split; [elt_tac|]. split; [elt_tac|].
  split; [nelt_tac|]. split; nelt_tac.
Qed.
Print Assumptions C19_add_refuted.
Theorem C19_sub_negative_short_refuted : exists q P r a m x y,
  2 ^ 62 < q /\ build q = Some P /\ typed (p_n64 P) m /\ usr r /\ usr a /\
  elt q (p_n64 P) m a x /\ elt q (p_n64 P) m r y /\
  ~ elt q (p_n64 P) (Fr_sub P r a r m) r ((x - y) mod q).
Proof.
  exists bn_r, bn_P, (U 0), (U 1), (mem3 4 [eL 5; eS (-3)]), (bn_r - 3), 5.
  split; [reflexivity|]. split; [exact bn_build|]. split; [apply mem3_typed|].
  split; [exact I|]. split; [exact I|]. split; [elt_tac|]. split; [elt_tac|]. nelt_tac.
Qed.
Print Assumptions C19_sub_negative_short_refuted.
Theorem C19_bits_refuted : exists q P r b m x y,
  2 ^ 62 < q /\ build q = Some P /\ typed (p_n64 P) m /\ usr r /\ usr b /\
  elt q (p_n64 P) m r x /\ elt q (p_n64 P) m b y /\
  ~ elt q (p_n64 P) (Fr_band P r r b m) r ((Z.land x y mod 2 ^ bitlen q) mod q) /\
  ~ elt q (p_n64 P) (Fr_bor P r b r m) r ((Z.lor x y mod 2 ^ bitlen q) mod q) /\
  ~ elt q (p_n64 P) (Fr_bxor P r r b m) r ((Z.lxor x y mod 2 ^ bitlen q) mod q) /\
  ~ elt q (p_n64 P) (Fr_bnot P r r m) r ((Z.lnot x mod 2 ^ bitlen q) mod q).
Proof.
  exists bn_r, bn_P, (U 0), (U 1), (mem3 4 [eLM bn_r 4 5; eL 7]), 5, 7.
  split; [reflexivity|]. split; [exact bn_build|]. split; [apply mem3_typed|].
  split; [exact I|]. split; [exact I|]. split; [elt_tac|]. split; [elt_tac|].
  split; [nelt_tac|]. split; [nelt_tac|]. split; nelt_tac.
Qed.
Print Assumptions C19_bits_refuted.
Theorem C19_shift_refuted : exists q P r b c m x y z,
  2 ^ 62 < q /\ bitlen q < 2 ^ 64 /\ build q = Some P /\ typed (p_n64 P) m /\ usr r /\ usr b /\ usr c /\
  elt q (p_n64 P) m r x /\ elt q (p_n64 P) m b y /\ elt q (p_n64 P) m c z /\
  ~ elt q (p_n64 P) (Fr_shl P r r b m) r (shift_val q (shl_val q) shr_val x y) /\
  ~ elt q (p_n64 P) (Fr_shr P r r c m) r (shift_val q shr_val (shl_val q) x z).
Proof.
  exists bn_r, bn_P, (U 0), (U 1), (U 2), (mem3 4 [eL (5 + 2 ^ 64 * 6 + 2 ^ 128 * 7); eS 64; eS (-64)]),
    (5 + 2 ^ 64 * 6 + 2 ^ 128 * 7), 64, (bn_r - 64).
  split; [reflexivity|]. split; [reflexivity|]. split; [exact bn_build|]. split; [apply mem3_typed|].
  split; [exact I|]. split; [exact I|]. split; [exact I|]. split; [elt_tac|]. split; [elt_tac|]. split; [elt_tac|].
  split; nelt_tac.
Qed.
Print Assumptions C19_shift_refuted.
Example C19_hyp : add_alias_ok (U 3) (U 3) (U 5) mE /\ sub_alias_ok (U 4) (U 4) (U 3) mE /\
  bit_alias_ok (U 3) (U 3) (U 1) mE.
Proof. repeat split; intros; try discriminate; try (left; reflexivity). Qed.

(** ** C20: programs *)
Theorem C20_programs : forall q P, 2 ^ 62 < q -> bitlen q < 2 ^ 64 -> build q = Some P ->
  forall prog m e e', Forall ok_cmd prog -> typed (p_n64 P) m -> agrees q (p_n64 P) m e ->
  vrun q prog e = Some e' ->
  typed (p_n64 P) (run P prog m) /\ agrees q (p_n64 P) (run P prog m) e'.
Proof. intros q P Hq Hb HP prog. exact (run_spec q P (build_ok q P ltac:(lia) HP) Hq Hb prog). Qed.
Print Assumptions C20_programs.
Definition prog20 : list cmd :=
  [Bin Mul (U 4) (U 4) (U 3); Bin Add (U 0) (U 4) (U 1); ToMont (U 1); Un Square (U 1) (U 1);
   Bin Sub (U 6) (U 0) (U 1); Bin Shl (U 7) (U 6) (U 1); Un Bnot (U 8) (U 7); Bin Lt (U 8) (U 8) (U 3)].
Definition e20 : env := fun p => match p with
  | U 1 => Some (bn_r - 7) | U 3 => Some (bn_r - 5) | U 4 => Some (bn_r - 2) | _ => None end.
Example C20_hyp : Forall ok_cmd prog20 /\ typed 4 mE /\ agrees bn_r 4 mE e20 /\
  exists e', vrun bn_r prog20 e20 = Some e' /\ e' (U 6) = Some (bn_r - 46).
Proof.
  split. { repeat constructor; cbn; try (intros _; split); discriminate. }
  split; [apply mem3_typed|]. split.
  - intros [[|[|[|[|[|i]]]]]|i] v _ H; try discriminate H; injection H as <-; elt_tac.
  - eexists. split; [reflexivity|]. vm_compute. reflexivity.
Qed.
