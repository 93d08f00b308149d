(** Properties C01-C07 and C50: raw layer of the portable implementation. *)
From Coq Require Import ZArith List Lia Znumtheory.
From Verif Require Import Limbs LimbsFacts Gen GenFacts Raw Spec MontFacts RawFacts Instances.
Import ListNotations.
Open Scope Z_scope.

(** ** C01 *)
Theorem C01_rawAdd : forall q P, 1 < q -> build q = Some P -> forall r a b m x y,
  holds q (p_n64 P) m a x -> holds q (p_n64 P) m b y ->
  holds q (p_n64 P) (rawAdd P r a b m) r ((x + y) mod q) /\ only r m (rawAdd P r a b m).
Proof. intros q P H1 H2. exact (rawAdd_spec q P (build_ok q P H1 H2)). Qed.
Print Assumptions C01_rawAdd.

Theorem C01_rawSub : forall q P, 1 < q -> build q = Some P -> forall r a b m x y,
  holds q (p_n64 P) m a x -> holds q (p_n64 P) m b y ->
  holds q (p_n64 P) (rawSub P r a b m) r ((x - y) mod q) /\ only r m (rawSub P r a b m).
Proof. intros q P H1 H2. exact (rawSub_spec q P (build_ok q P H1 H2)). Qed.
Print Assumptions C01_rawSub.

Theorem C01_rawNeg : forall q P, 1 < q -> build q = Some P -> forall r a m x,
  holds q (p_n64 P) m a x ->
  holds q (p_n64 P) (rawNeg P r a m) r ((- x) mod q) /\ only r m (rawNeg P r a m).
Proof. intros q P H1 H2. exact (rawNeg_spec q P (build_ok q P H1 H2)). Qed.
Print Assumptions C01_rawNeg.

Ltac hold_tac := apply holdsb_ok; vm_compute; reflexivity.

(** Non-vacuity: values next to q on the 254-bit and on the 256-bit modulus. *)
Definition m_bn := mem_of 4 (fun i => match i with O => 5 | S O => bn_r - 1 | _ => 2 ^ 253 - 3 end).
Definition m_secp := mem_of 4 (fun i => match i with O => 7 | S O => secp_q - 1 | _ => 2 ^ 255 + 1 end).
Example C01_hyp_bn : holds bn_r (p_n64 bn_P) m_bn (U 1) (bn_r - 1) /\ holds bn_r (p_n64 bn_P) m_bn (U 2) (2 ^ 253 - 3).
Proof. split; hold_tac. Qed.
Example C01_hyp_secp : holds secp_q (p_n64 secp_P) m_secp (U 1) (secp_q - 1) /\ holds secp_q (p_n64 secp_P) m_secp (U 2) (2 ^ 255 + 1).
Proof. split; hold_tac. Qed.
Example C01_run_secp : eval (rawAdd secp_P (U 1) (U 1) (U 2) m_secp (U 1)) = 2 ^ 255.
Proof. vm_compute. reflexivity. Qed.

(** ** C02 *)
Theorem C02_rawMMul : forall q P, 1 < q -> build q = Some P -> forall r a b m y,
  limbs_ok (p_n64 P) (m a) -> holds q (p_n64 P) m b y ->
  exists z, holds q (p_n64 P) (rawMMul P r a b m) r z /\
            (z * Rad (p_n64 P)) mod q = (eval (m a) * y) mod q /\
            only r m (rawMMul P r a b m).
Proof. intros q P H1 H2. exact (rawMMul_spec q P (build_ok q P H1 H2)). Qed.
Print Assumptions C02_rawMMul.

Theorem C02_rawMSquare : forall q P, 1 < q -> build q = Some P -> forall r a m x,
  holds q (p_n64 P) m a x ->
  exists z, holds q (p_n64 P) (rawMSquare P r a m) r z /\
            (z * Rad (p_n64 P)) mod q = (x * x) mod q /\
            only r m (rawMSquare P r a m).
Proof.
  intros q P H1 H2. exact (rawMSquare_spec q P (build_ok q P H1 H2)).
Qed.
Print Assumptions C02_rawMSquare.

(** The quotient by the radix is unique, so C02 pins the stored value down. *)
Theorem C02_unique : forall q P, 1 < q -> build q = Some P -> forall z z',
  0 <= z < q -> 0 <= z' < q ->
  (z * Rad (p_n64 P)) mod q = (z' * Rad (p_n64 P)) mod q -> z = z'.
Proof.
  intros q P H1 H2 z z' Hz Hz' E. apply (Rad_cancel q P (build_ok q P H1 H2)) in E.
  rewrite !Z.mod_small in E by assumption. exact E.
Qed.
Print Assumptions C02_unique.

(** Both generator shapes occur. *)
Example C02_shapes : p_opt bn_P = true /\ p_opt secp_P = false /\ p_opt gold_P = false /\ p_n64 gold_P = 1%nat.
Proof. repeat split. Qed.
Example C02_run : eval (rawMMul secp_P (U 1) (U 1) (U 2) m_secp (U 1)) * Rad 4 mod secp_q
  = (secp_q - 1) * (2 ^ 255 + 1) mod secp_q.
Proof. vm_compute. reflexivity. Qed.

(** ** C03 *)
Theorem C03_rawMMul1 : forall q P, 1 < q -> build q = Some P -> forall r a w m x,
  holds q (p_n64 P) m a x -> 0 <= w < 2 ^ 64 ->
  exists z, holds q (p_n64 P) (rawMMul1 P r a w m) r z /\
            (z * Rad (p_n64 P)) mod q = (x * w) mod q /\ only r m (rawMMul1 P r a w m).
Proof. intros q P H1 H2. exact (rawMMul1_spec q P (build_ok q P H1 H2)). Qed.
Print Assumptions C03_rawMMul1.

Theorem C03_rawFromMontgomery : forall q P, 1 < q -> build q = Some P -> forall r a m,
  limbs_ok (p_n64 P) (m a) ->
  exists z, holds q (p_n64 P) (rawFromMontgomery P r a m) r z /\
            (z * Rad (p_n64 P)) mod q = eval (m a) mod q /\ only r m (rawFromMontgomery P r a m).
Proof. intros q P H1 H2. exact (rawFromMontgomery_spec q P (build_ok q P H1 H2)). Qed.
Print Assumptions C03_rawFromMontgomery.

Theorem C03_rawToMontgomery : forall q P, 1 < q -> build q = Some P -> forall r a m,
  limbs_ok (p_n64 P) (m a) ->
  holds q (p_n64 P) (rawToMontgomery P r a m) r ((eval (m a) * Rad (p_n64 P)) mod q) /\
  only r m (rawToMontgomery P r a m).
Proof. intros q P H1 H2. exact (rawToMontgomery_spec q P (build_ok q P H1 H2)). Qed.
Print Assumptions C03_rawToMontgomery.

Theorem C03_roundtrip : forall q P, 1 < q -> build q = Some P -> forall r a m,
  limbs_ok (p_n64 P) (m a) ->
  holds q (p_n64 P) (rawFromMontgomery P r r (rawToMontgomery P r a m)) r (eval (m a) mod q).
Proof. intros q P H1 H2. exact (montgomery_roundtrip q P (build_ok q P H1 H2)). Qed.
Print Assumptions C03_roundtrip.

Example C03_run : eval (rawFromMontgomery secp_P (U 0) (U 1) m_secp (U 0)) * Rad 4 mod secp_q = secp_q - 1.
Proof. vm_compute. reflexivity. Qed.

(** ** C04 *)
Theorem C04_rawAddLS : forall q P, 1 < q -> build q = Some P -> forall r a w m x,
  holds q (p_n64 P) m a x -> 0 <= w < 2 ^ 64 -> w <= q ->
  holds q (p_n64 P) (rawAddLS P r a w m) r ((x + w) mod q) /\ only r m (rawAddLS P r a w m).
Proof. intros q P H1 H2. exact (rawAddLS_spec q P (build_ok q P H1 H2)). Qed.
Print Assumptions C04_rawAddLS.

Theorem C04_rawSubLS : forall q P, 1 < q -> build q = Some P -> forall r a w m x,
  holds q (p_n64 P) m a x -> 0 <= w < 2 ^ 64 -> w <= q ->
  holds q (p_n64 P) (rawSubLS P r a w m) r ((x - w) mod q) /\ only r m (rawSubLS P r a w m).
Proof. intros q P H1 H2. exact (rawSubLS_spec q P (build_ok q P H1 H2)). Qed.
Print Assumptions C04_rawSubLS.

Theorem C04_rawSubSL : forall q P, 1 < q -> build q = Some P -> forall r w b m y,
  0 <= w < 2 ^ 64 -> w < q -> holds q (p_n64 P) m b y ->
  holds q (p_n64 P) (rawSubSL P r w b m) r ((w - y) mod q) /\ only r m (rawSubSL P r w b m).
Proof. intros q P H1 H2. exact (rawSubSL_spec q P (build_ok q P H1 H2)). Qed.
Print Assumptions C04_rawSubSL.

(** Destination different from the operand, and not both operands zero: the
    two exclusions are necessary, see the refutations below. *)
Theorem C04_rawNegLS_partial : forall q P, 1 < q -> build q = Some P -> forall r a w m x,
  r <> a -> holds q (p_n64 P) m a x -> 0 <= w < 2 ^ 64 -> 0 < x + w <= 2 * q ->
  holds q (p_n64 P) (rawNegLS P r a w m) r ((- (x + w)) mod q) /\ only r m (rawNegLS P r a w m).
Proof. intros q P H1 H2. exact (rawNegLS_spec q P (build_ok q P H1 H2)). Qed.
Print Assumptions C04_rawNegLS_partial.

Theorem C04_rawNegLS_zero_refuted : exists q P r a w m x,
  1 < q /\ build q = Some P /\ r <> a /\ holds q (p_n64 P) m a x /\ 0 <= w < q /\
  ~ holds q (p_n64 P) (rawNegLS P r a w m) r ((- (x + w)) mod q).
Proof.
  exists bn_r, bn_P, (U 1), (U 0), 0, (mem_of 4 (fun _ => 0)), 0.
  split; [exact bn_gt1|]. split; [exact bn_build|]. split; [discriminate|]. split; [hold_tac|].
  split; [split; [discriminate|reflexivity]|].
  intros (_ & E & _). vm_compute in E. discriminate.
Qed.
Print Assumptions C04_rawNegLS_zero_refuted.

Theorem C04_rawNegLS_inplace_refuted : exists q P a w m x,
  1 < q /\ build q = Some P /\ holds q (p_n64 P) m a x /\ 0 < w < q /\
  ~ holds q (p_n64 P) (rawNegLS P a a w m) a ((- (x + w)) mod q).
Proof.
  exists bn_r, bn_P, (U 0), 1, m_bn, 5.
  split; [exact bn_gt1|]. split; [exact bn_build|]. split; [hold_tac|].
  split; [split; reflexivity|].
  intros (_ & E & _). vm_compute in E. discriminate.
Qed.
Print Assumptions C04_rawNegLS_inplace_refuted.

Theorem C04_rawCopyS2L : forall q P, 1 < q -> build q = Some P -> forall r v m,
  - 2 ^ 63 <= v < 2 ^ 63 -> - q <= v < q ->
  holds q (p_n64 P) (rawCopyS2L P r v m) r (v mod q) /\ only r m (rawCopyS2L P r v m).
Proof. intros q P H1 H2. exact (rawCopyS2L_spec q P (build_ok q P H1 H2)). Qed.
Print Assumptions C04_rawCopyS2L.

Example C04_run : eval (rawCopyS2L secp_P (U 0) (-(2 ^ 63)) m_secp (U 0)) = secp_q - 2 ^ 63
  /\ eval (rawSubSL secp_P (U 1) 3 (U 1) m_secp (U 1)) = 4
  /\ eval (rawNegLS secp_P (U 0) (U 1) 3 m_secp (U 0)) = secp_q - 2.
Proof. vm_compute. repeat split. Qed.

(** ** C05 *)
Theorem C05_rawAnd : forall q P, 1 < q -> build q = Some P -> forall r a b m,
  limbs_ok (p_n64 P) (m a) -> limbs_ok (p_n64 P) (m b) ->
  holds q (p_n64 P) (rawAnd P r a b m) r ((Z.land (eval (m a)) (eval (m b)) mod 2 ^ bitLength q) mod q) /\
  only r m (rawAnd P r a b m).
Proof. intros q P H1 H2. rewrite <- (build_bits q P H2). exact (rawAnd_spec q P (build_ok q P H1 H2)). Qed.
Print Assumptions C05_rawAnd.

Theorem C05_rawOr : forall q P, 1 < q -> build q = Some P -> forall r a b m,
  limbs_ok (p_n64 P) (m a) -> limbs_ok (p_n64 P) (m b) ->
  holds q (p_n64 P) (rawOr P r a b m) r ((Z.lor (eval (m a)) (eval (m b)) mod 2 ^ bitLength q) mod q) /\
  only r m (rawOr P r a b m).
Proof. intros q P H1 H2. rewrite <- (build_bits q P H2). exact (rawOr_spec q P (build_ok q P H1 H2)). Qed.
Print Assumptions C05_rawOr.

Theorem C05_rawXor : forall q P, 1 < q -> build q = Some P -> forall r a b m,
  limbs_ok (p_n64 P) (m a) -> limbs_ok (p_n64 P) (m b) ->
  holds q (p_n64 P) (rawXor P r a b m) r ((Z.lxor (eval (m a)) (eval (m b)) mod 2 ^ bitLength q) mod q) /\
  only r m (rawXor P r a b m).
Proof. intros q P H1 H2. rewrite <- (build_bits q P H2). exact (rawXor_spec q P (build_ok q P H1 H2)). Qed.
Print Assumptions C05_rawXor.

Theorem C05_rawNot : forall q P, 1 < q -> build q = Some P -> forall r a m,
  limbs_ok (p_n64 P) (m a) ->
  holds q (p_n64 P) (rawNot P r a m) r ((Z.lnot (eval (m a)) mod 2 ^ bitLength q) mod q) /\
  only r m (rawNot P r a m).
Proof. intros q P H1 H2. rewrite <- (build_bits q P H2). exact (rawNot_spec q P (build_ok q P H1 H2)). Qed.
Print Assumptions C05_rawNot.

Example C05_run : eval (rawNot bn_P (U 0) (U 0) m_bn (U 0)) = 2 ^ 254 - 1 - 5 - bn_r
  /\ eval (rawOr bn_P (U 1) (U 1) (U 2) m_bn (U 1)) = Z.lor (bn_r - 1) (2 ^ 253 - 3) - bn_r.
Proof. vm_compute. repeat split. Qed.

(** ** C06 *)
Theorem C06_rawShl_partial : forall q P, 1 < q -> build q = Some P -> forall r a s m,
  limbs_ok (p_n64 P) (m a) -> length (m r) = p_n64 P -> 0 <= s < 64 * Z.of_nat (p_n64 P) ->
  (r <> a \/ s < 64) ->
  holds q (p_n64 P) (rawShl P r a s m) r (((eval (m a) * 2 ^ s) mod 2 ^ bitLength q) mod q) /\
  only r m (rawShl P r a s m).
Proof. intros q P H1 H2. rewrite <- (build_bits q P H2). exact (rawShl_spec q P (build_ok q P H1 H2)). Qed.
Print Assumptions C06_rawShl_partial.

(** In place with a shift of 64 or more the copy overlaps itself. *)
Theorem C06_rawShl_inplace_refuted : exists q P a s m x,
  1 < q /\ build q = Some P /\ holds q (p_n64 P) m a x /\ 0 <= s < bitLength q /\
  ~ holds q (p_n64 P) (rawShl P a a s m) a (((x * 2 ^ s) mod 2 ^ bitLength q) mod q).
Proof.
  exists bn_r, bn_P, (U 0), 64, m_bn, 5.
  split; [exact bn_gt1|]. split; [exact bn_build|]. split; [hold_tac|].
  split; [split; [discriminate|reflexivity]|].
  intros (_ & E & _). vm_compute in E. discriminate.
Qed.
Print Assumptions C06_rawShl_inplace_refuted.

Theorem C06_rawShr : forall q P, 1 < q -> build q = Some P -> forall r a s m,
  limbs_ok (p_n64 P) (m a) -> length (m r) = p_n64 P -> 0 <= s < 64 * Z.of_nat (p_n64 P) ->
  limbs_ok (p_n64 P) (rawShr P r a s m r) /\ eval (rawShr P r a s m r) = eval (m a) / 2 ^ s /\
  only r m (rawShr P r a s m).
Proof. intros q P H1 H2. exact (rawShr_spec q P (build_ok q P H1 H2)). Qed.
Print Assumptions C06_rawShr.

Example C06_run : eval (rawShl bn_P (U 0) (U 1) 70 m_bn (U 0)) = ((bn_r - 1) * 2 ^ 70 mod 2 ^ 254) mod bn_r
  /\ eval (rawShr bn_P (U 1) (U 1) 70 m_bn (U 1)) = (bn_r - 1) / 2 ^ 70.
Proof. vm_compute. repeat split. Qed.

(** ** C07 *)
Theorem C07_rawCmp : forall a b m,
  (rawCmp a b m < 0 <-> eval (m a) < eval (m b)) /\
  (rawCmp a b m = 0 <-> eval (m a) = eval (m b)) /\
  (rawCmp a b m > 0 <-> eval (m a) > eval (m b)).
Proof. exact rawCmp_spec. Qed.
Print Assumptions C07_rawCmp.
Theorem C07_rawIsEq : forall a b m, rawIsEq a b m = if eval (m a) =? eval (m b) then 1 else 0.
Proof. exact rawIsEq_spec. Qed.
Print Assumptions C07_rawIsEq.
Theorem C07_rawIsZero : forall a m, rawIsZero a m = if eval (m a) =? 0 then 1 else 0.
Proof. exact rawIsZero_spec. Qed.
Print Assumptions C07_rawIsZero.
(** Equal values are equal arrays: the comparisons above decide identity. *)
Theorem C07_eval_injective : forall n a b, limbs_ok n a -> limbs_ok n b -> eval a = eval b -> a = b.
Proof. exact eval_inj. Qed.
Print Assumptions C07_eval_injective.
Theorem C07_rawSwap : forall i r a m, (forall j, T j <> r) -> (forall j, T j <> a) ->
  rawSwap (T i) r a m r = m a /\ rawSwap (T i) r a m a = m r /\
  forall p, p <> r -> p <> a -> p <> T i -> rawSwap (T i) r a m p = m p.
Proof. intros i r a m H1 H2. exact (rawSwap_spec (T i) r a m (H1 i) (H2 i)). Qed.
Print Assumptions C07_rawSwap.
Example C07_run : eval (rawSwap (T 0) (U 1) (U 2) m_bn (U 2)) = bn_r - 1 /\ (forall j, T j <> U 1).
Proof. split; [vm_compute; reflexivity|discriminate]. Qed.

(** ** C50 *)
Theorem C50_generator : forall q, 1 < q -> Z.odd q = true -> exists P,
  build q = Some P /\
  (let n := p_n64 P in let R := Rad n in
   (1 <= n)%nat /\ 2 ^ (64 * (Z.of_nat n - 1)) <= q < R /\
   limbs_ok n (p_q P) /\ eval (p_q P) = q /\ p_rawq P = p_q P ++ [0] /\
   limbs_ok n (p_R2 P) /\ eval (p_R2 P) = R ^ 2 mod q /\
   limbs_ok n (p_R3 P) /\ eval (p_R3 P) = R ^ 3 mod q /\
   limbs_ok n (p_half P) /\ eval (p_half P) = (q - 1) / 2 /\
   0 < p_np P < 2 ^ 64 /\ (p_np P * q) mod 2 ^ 64 = 2 ^ 64 - 1 /\
   2 ^ (p_bits P - 1) <= q < 2 ^ p_bits P /\
   p_lbo P = 2 ^ (p_bits P - 64 * (Z.of_nat n - 1)) - 1 /\
   (p_opt P = true <-> q / 2 ^ (64 * (Z.of_nat n - 1)) <= 2 ^ 63 - 2) /\
   (p_opt P = true -> 2 * q < R)).
Proof. exact generator_spec. Qed.
Print Assumptions C50_generator.

(** An even modulus is rejected. *)
Theorem C50_even_rejected : forall q, 1 < q -> Z.odd q = false -> build q = None.
Proof. exact generator_even. Qed.
Print Assumptions C50_even_rejected.

Example C50_run : p_np bn_P = 14042775128853446655 /\ p_lbo bn_P = 4611686018427387903.
Proof. repeat split. Qed.
