(** Properties C21-C25: the mpz based functions and the RawFr class. *)
From Coq Require Import ZArith List Lia Bool Znumtheory.
From Verif Require Import Limbs LimbsFacts Gen GenFacts Raw Spec RawFacts Instances Primes Fr FrSpec FrInst
  Bytes BytesFacts Text TextFacts FrCpp FrCppSpec FrCppFacts.
Import ListNotations.
Open Scope Z_scope.

Lemma prime_gcd q x : prime q -> 0 <= x < q -> x <> 0 -> Z.gcd x q = 1.
Proof.
  intros Hp Hx N. apply Zgcd_1_rel_prime. apply rel_prime_sym, prime_rel_prime; [exact Hp|].
  intros D. apply Z.divide_pos_le in D; lia.
Qed.

(** Witness search by evaluation only (a memory is a function: it must not be
    normalised on its own). *)
Lemma opt_ex (A : Type) (o : option A) (f : A -> bool) :
  match o with Some m => f m | None => false end = true -> exists m, o = Some m /\ f m = true.
Proof. destruct o; [eauto|discriminate]. Qed.

(** ** C21 *)
Theorem C21_idiv : forall q P, 2 ^ 32 < q -> build q = Some P -> forall r a b m x y,
  typed (p_n64 P) m -> elt q (p_n64 P) m a x -> elt q (p_n64 P) m b y -> y <> 0 ->
  exists m', Fr_idiv P r a b m = Some m' /\ yields q (p_n64 P) r m m' (x / y).
Proof. intros q P Hq HP. exact (Fr_idiv_spec q P (build_ok q P ltac:(lia) HP) Hq). Qed.
Print Assumptions C21_idiv.
Theorem C21_mod : forall q P, 2 ^ 32 < q -> build q = Some P -> forall r a b m x y,
  typed (p_n64 P) m -> elt q (p_n64 P) m a x -> elt q (p_n64 P) m b y -> y <> 0 ->
  exists m', Fr_mod P r a b m = Some m' /\ yields q (p_n64 P) r m m' (x mod y).
Proof. intros q P Hq HP. exact (Fr_mod_spec q P (build_ok q P ltac:(lia) HP) Hq). Qed.
Print Assumptions C21_mod.
Theorem C21_pow : forall q P, 2 ^ 32 < q -> build q = Some P -> forall r a b m x y,
  typed (p_n64 P) m -> elt q (p_n64 P) m a x -> elt q (p_n64 P) m b y ->
  exists m', Fr_pow P r a b m = Some m' /\ yields q (p_n64 P) r m m' (x ^ y mod q).
Proof. intros q P Hq HP. exact (Fr_pow_spec q P (build_ok q P ltac:(lia) HP) Hq). Qed.
Print Assumptions C21_pow.
Theorem C21_inv : forall q P, 2 ^ 32 < q -> prime q -> build q = Some P -> forall r a m x,
  typed (p_n64 P) m -> elt q (p_n64 P) m a x -> x <> 0 ->
  exists m' y, Fr_inv P r a m = Some m' /\ yields q (p_n64 P) r m m' y /\ (x * y) mod q = 1.
Proof.
  intros q P Hq Hp HP r a m x Ht Hx N.
  destruct (Fr_inv_spec q P (build_ok q P ltac:(lia) HP) Hq r a m x Ht Hx (prime_gcd q x Hp (proj1 Hx) N)) as (m' & y & H1 & H2 & H3 & _).
  exists m', y. exact (conj H1 (conj H2 H3)).
Qed.
Print Assumptions C21_inv.
Theorem C21_div : forall q P, 2 ^ 62 < q -> prime q -> build q = Some P -> forall r a b m x y,
  typed (p_n64 P) m -> usr a -> elt q (p_n64 P) m a x -> elt q (p_n64 P) m b y -> y <> 0 ->
  exists m' z, Fr_div P r a b m = Some m' /\ yields q (p_n64 P) r m m' z /\ (z * y) mod q = x.
Proof.
  intros q P Hq Hp HP r a b m x y Ht Ha Hx Hy N.
  exact (Fr_div_spec q P (build_ok q P ltac:(lia) HP) ltac:(lia) r a b m x y Hq Ht Ha Hx Hy (prime_gcd q y Hp (proj1 Hy) N)).
Qed.
Print Assumptions C21_div.
(** Division by zero aborts; the inverse of zero is undefined. *)
Theorem C21_zero_divisor : forall q P, 2 ^ 32 < q -> build q = Some P -> forall r a b m x,
  typed (p_n64 P) m -> elt q (p_n64 P) m a x -> elt q (p_n64 P) m b 0 ->
  Fr_idiv P r a b m = None /\ Fr_mod P r a b m = None /\ Fr_inv P r b m = None /\ Fr_div P r a b m = None.
Proof.
  intros q P Hq HP r a b m x Ht Hx H0. set (OK := build_ok q P ltac:(lia) HP).
  assert (G : forall r', Fr_inv P r' b m = None).
  { intros r'. apply (Fr_inv_none q P OK Hq r' b m 0 Ht H0). rewrite Z.gcd_0_l. lia. }
  unfold Fr_idiv, Fr_mod, Fr_div. rewrite !G, (toMpz_spec q P OK Hq b m 0 Ht H0). auto.
Qed.
Print Assumptions C21_zero_divisor.

Definition m21 : mem := mem3 2 [eS (-7); eLM two_q 2 100; eL 7; eS 0].
Example C21_hyp : typed (p_n64 two_P) m21 /\ usr (U 0) /\ elt two_q (p_n64 two_P) m21 (U 0) (two_q - 7) /\
  elt two_q (p_n64 two_P) m21 (U 1) 100 /\ elt two_q (p_n64 two_P) m21 (U 2) 7 /\ elt two_q (p_n64 two_P) m21 (U 3) 0 /\
  2 ^ 62 < two_q /\ prime two_q /\ build two_q = Some two_P.
Proof.
  split; [apply mem3_typed|]. split; [exact I|]. do 4 (split; [apply eltb_true; vm_compute; reflexivity|]).
  split; [reflexivity|]. split; [exact two_prime|exact two_build].
Qed.

(** ** C22 *)
Theorem C22_element2str : forall q P, 2 ^ 32 < q -> build q = Some P -> forall a m x,
  typed (p_n64 P) m -> elt q (p_n64 P) m a x -> numeral 10 (Fr_element2str P a m) x.
Proof.
  intros q P Hq HP a m x Ht Hx. rewrite (element2str_spec q P (build_ok q P ltac:(lia) HP) Hq a m x Ht Hx).
  apply get_str_numeral; [lia|]. apply Hx.
Qed.
Print Assumptions C22_element2str.
Theorem C22_str2element : forall q P, 2 ^ 32 < q -> build q = Some P -> forall r ds m,
  typed (p_n64 P) m -> ds <> [] -> Forall (fun c => 48 <= c <= 57) ds ->
  (exists m', Fr_str2element P r ds m = Some m' /\ yields q (p_n64 P) r m m' (horner 10 ds mod q)) /\
  (exists m', Fr_str2element P r (45 :: ds) m = Some m' /\ yields q (p_n64 P) r m m' ((- horner 10 ds) mod q)).
Proof.
  intros q P Hq HP r ds m Ht N D. set (OK := build_ok q P ltac:(lia) HP).
  assert (D' : forallb (is_digit 10) ds = true).
  { apply forallb_forall. rewrite Forall_forall in D. intros c Hc. specialize (D c Hc). unfold is_digit, digit_of.
    replace ((48 <=? c) && (c <=? 57)) with true by lia. lia. }
  destruct (set_str_digits 10 ds ltac:(lia) N D') as [E1 E2].
  split; apply (str2element_spec q P OK Hq); auto.
Qed.
Print Assumptions C22_str2element.
Theorem C22_roundtrip : forall q P, 2 ^ 32 < q -> build q = Some P -> forall r a m x,
  typed (p_n64 P) m -> elt q (p_n64 P) m a x ->
  exists m', Fr_str2element P r (Fr_element2str P a m) m = Some m' /\ yields q (p_n64 P) r m m' x.
Proof.
  intros q P Hq HP r a m x Ht Hx. set (OK := build_ok q P ltac:(lia) HP).
  rewrite (element2str_spec q P OK Hq a m x Ht Hx).
  pose proof (set_str_numeral 10 _ x ltac:(lia) (get_str_numeral 10 x ltac:(lia) ltac:(apply Hx))) as E.
  destruct (str2element_spec q P OK Hq r _ x m Ht E) as (m' & E' & Y).
  rewrite Z.mod_small in Y by apply Hx. eauto.
Qed.
Print Assumptions C22_roundtrip.
Example C22_run : Fr_element2str two_P (U 1) m21 = [49; 48; 48] /\
  (exists m', Fr_str2element two_P (U 0) [45; 49; 50] m21 = Some m' /\ elt two_q 2 m' (U 0) (two_q - 12)).
Proof.
  split; [vm_compute; reflexivity|].
  destruct (opt_ex _ (Fr_str2element two_P (U 0) [45; 49; 50] m21) (fun m' => eltb two_q 2 m' (U 0) (two_q - 12))) as (m' & E & H);
    [vm_compute; reflexivity|]. exists m'. split; [exact E|]. apply eltb_true, H.
Qed.

(** ** C23 *)
Theorem C23_ring : forall q P, 1 < q -> build q = Some P -> forall r a b m x y,
  rval q (p_n64 P) m a x -> rval q (p_n64 P) m b y ->
  (rval q (p_n64 P) (Raw_add P r a b m) r ((x + y) mod q) /\ only r m (Raw_add P r a b m)) /\
  (rval q (p_n64 P) (Raw_sub P r a b m) r ((x - y) mod q) /\ only r m (Raw_sub P r a b m)) /\
  (rval q (p_n64 P) (Raw_mul P r a b m) r ((x * y) mod q) /\ only r m (Raw_mul P r a b m)) /\
  (rval q (p_n64 P) (Raw_neg P r a m) r ((- x) mod q) /\ only r m (Raw_neg P r a m)) /\
  (rval q (p_n64 P) (Raw_square P r a m) r ((x * x) mod q) /\ only r m (Raw_square P r a m)) /\
  (rval q (p_n64 P) (Raw_copy r a m) r x /\ only r m (Raw_copy r a m)) /\
  Raw_eq a b m = Z.b2z (x =? y) /\ Raw_isZero a m = Z.b2z (x =? 0) /\ Raw_toMpz P a m = x.
Proof.
  intros q P Hq HP r a b m x y Hx Hy. set (OK := build_ok q P Hq HP).
  exact (conj (Raw_add_spec q P OK r a b m x y Hx Hy) (conj (Raw_sub_spec q P OK r a b m x y Hx Hy)
    (conj (Raw_mul_spec q P OK r a b m x y Hx Hy) (conj (Raw_neg_spec q P OK r a m x Hx)
    (conj (Raw_square_spec q P OK r a m x Hx) (conj (Raw_copy_spec q P r a m x Hx)
    (conj (Raw_eq_spec q P OK a b m x y Hx Hy) (conj (Raw_isZero_spec q P OK a m x Hx) (Raw_toMpz_spec q P OK a m x Hx))))))))).
Qed.
Print Assumptions C23_ring.
Theorem C23_inv : forall q P, prime q -> build q = Some P -> forall r a m x,
  rval q (p_n64 P) m a x -> x <> 0 ->
  exists m' y, Raw_inv P r a m = Some m' /\ rval q (p_n64 P) m' r y /\ (x * y) mod q = 1 /\ only r m m'.
Proof.
  intros q P Hp HP r a m x Hx N. pose proof (prime_ge_2 q Hp).
  exact (Raw_inv_spec q P (build_ok q P ltac:(lia) HP) r a m x Hx (prime_gcd q x Hp (proj1 Hx) N)).
Qed.
Print Assumptions C23_inv.
Theorem C23_div : forall q P, prime q -> build q = Some P -> forall r a b m x y,
  rval q (p_n64 P) m a x -> rval q (p_n64 P) m b y -> a <> T 0 -> y <> 0 ->
  exists m' z, Raw_div P r a b m = Some m' /\ rval q (p_n64 P) m' r z /\ (z * y) mod q = x /\
  forall p, p <> r -> p <> T 0 -> m' p = m p.
Proof.
  intros q P Hp HP r a b m x y Hx Hy Ha N. pose proof (prime_ge_2 q Hp).
  exact (Raw_div_spec q P (build_ok q P ltac:(lia) HP) r a b m x y Hx Hy Ha (prime_gcd q y Hp (proj1 Hy) N)).
Qed.
Print Assumptions C23_div.
Theorem C23_embed : forall q P, 2 ^ 31 <= q -> build q = Some P -> forall r m,
  (forall v, 0 <= v < 2 ^ 64 -> exists m', Raw_fromUI P r v m = Some m' /\ rval q (p_n64 P) m' r (v mod q) /\ only r m m') /\
  (forall v, is_int32 v -> exists m', Raw_set P r v m = Some m' /\ rval q (p_n64 P) m' r (v mod q) /\ only r m m') /\
  (forall v, 0 <= v < Rad (p_n64 P) -> exists m', Raw_fromMpz P r v m = Some m' /\ rval q (p_n64 P) m' r (v mod q) /\ only r m m') /\
  (forall radix ds, 2 <= radix <= 36 -> ds <> [] -> forallb (is_digit radix) ds = true ->
     (exists m', Raw_fromString P r ds radix m = Some m' /\ rval q (p_n64 P) m' r (horner radix ds mod q) /\ only r m m') /\
     (exists m', Raw_fromString P r (45 :: ds) radix m = Some m' /\ rval q (p_n64 P) m' r ((- horner radix ds) mod q) /\ only r m m')).
Proof.
  intros q P Hq HP r m. set (OK := build_ok q P ltac:(lia) HP).
  split; [intros v; exact (Raw_fromUI_spec q P OK r v m)|].
  split; [intros v Hv; exact (Raw_set_spec q P OK r v m Hv Hq)|].
  split; [intros v; exact (Raw_fromMpz_spec q P OK r v m)|].
  intros radix ds Hr N D. destruct (set_str_digits radix ds Hr N D) as [E1 E2].
  exact (conj (Raw_fromString_spec q P OK r ds radix _ m E1) (Raw_fromString_spec q P OK r (45 :: ds) radix _ m E2)).
Qed.
Print Assumptions C23_embed.
Theorem C23_text : forall q P, 2 ^ 31 <= q -> build q = Some P -> forall a r m x radix,
  2 <= radix <= 36 -> rval q (p_n64 P) m a x ->
  numeral radix (Raw_toString P a radix m) x /\
  exists m', Raw_fromString P r (Raw_toString P a radix m) radix m = Some m' /\ rval q (p_n64 P) m' r x /\ only r m m'.
Proof.
  intros q P Hq HP a r m x radix Hr Hx. set (OK := build_ok q P ltac:(lia) HP).
  unfold Raw_toString. rewrite (Raw_toMpz_spec q P OK a m x Hx).
  pose proof (get_str_numeral radix x Hr ltac:(apply Hx)) as Nu. split; [exact Nu|].
  destruct (Raw_fromString_spec q P OK r _ radix x m (set_str_numeral radix _ x Hr Nu)) as (m' & E & V & O).
  rewrite Z.mod_small in V by apply Hx. eauto.
Qed.
Print Assumptions C23_text.
(** set(int) of a negative number is wrong for moduli below 2^31 (the code adds
    q once, then exports the absolute value). *)
Definition tiny_P : zq := Eval vm_compute in force (build 7).
Theorem C23_set_tiny_refuted : exists q P r v m, prime q /\ build q = Some P /\ is_int32 v /\
  forall m', Raw_set P r v m = Some m' -> ~ rval q (p_n64 P) m' r (v mod q).
Proof.
  exists 7, tiny_P, (U 0), (-100), (mem_of 1 (fun _ => 0)).
  split. { apply NumTheory.trial_prime; [reflexivity|vm_compute; reflexivity]. }
  split; [vm_compute; reflexivity|]. split; [vm_compute; split; discriminate || reflexivity|].
  intros m' E [_ H]. unfold holds in H. destruct H as (_ & H & _).
  assert (Ev : match Raw_set tiny_P (U 0) (-100) (mem_of 1 (fun _ => 0)) with Some m1 => eval (m1 (U 0)) | None => -1 end = 4) by (vm_compute; reflexivity).
  rewrite E in Ev. rewrite H in Ev. vm_compute in Ev. discriminate.
Qed.
Print Assumptions C23_set_tiny_refuted.

Definition m23 : rmem := mem_of 4 (fun i => (Z.of_nat i * 3 * Rad 4) mod bn_r).
Definition rvalb q n m p x : bool := (0 <=? x) && (x <? q) && holdsb q n m p ((x * Rad n) mod q).
Lemma rval_conc q n m p x : rvalb q n m p x = true -> rval q n m p x.
Proof. unfold rvalb. rewrite !andb_true_iff, Z.leb_le, Z.ltb_lt. intros [[H1 H2] H3]. split; [auto|]. apply holdsb_ok, H3. Qed.
Definition m23' : rmem := mem_of 2 (fun i => (Z.of_nat i * 3 * Rad 2) mod two_q).
Example C23_hyp : rval two_q (p_n64 two_P) m23' (U 2) 6 /\ rval two_q (p_n64 two_P) m23' (U 5) 15 /\ prime two_q.
Proof.
  split; [apply rval_conc; vm_compute; reflexivity|]. split; [apply rval_conc; vm_compute; reflexivity|exact two_prime].
Qed.

(** ** C24 *)
(** Full claim: for every scalar of every length.  It holds for scalars of up
    to 2^28 bytes; beyond, the loop counter overflows (next theorem). *)
Theorem C24_exp_partial : forall q P, 1 < q -> build q = Some P -> forall r base s m x,
  bytes_ok s -> Z.of_nat (length s) <= 2 ^ 28 -> r <> T 0 -> rval q (p_n64 P) m base x ->
  rval q (p_n64 P) (Raw_exp P r base s m) r (x ^ le_val s mod q) /\
  forall p, p <> r -> p <> T 0 -> Raw_exp P r base s m p = m p.
Proof. intros q P Hq HP. exact (Raw_exp_spec q P (build_ok q P Hq HP)). Qed.
Print Assumptions C24_exp_partial.
(** 2 ^ 1 = 1 when the exponent is written with 2^28 + 1 bytes. *)
Lemma exp_huge k : Z.of_nat k = 2 ^ 28 -> exists q P r base s m x,
  1 < q /\ build q = Some P /\ bytes_ok s /\ Z.of_nat (length s) < 2 ^ 32 /\ r <> T 0 /\ rval q (p_n64 P) m base x /\
  le_val s = 1 /\ x = 2 /\ rval q (p_n64 P) (Raw_exp P r base s m) r 1.
Proof.
  intros Hk.
  exists bn_r, bn_P, (U 0), (U 1), (1 :: repeat 0 k), (mem_of 4 (fun i => (2 * Rad 4) mod bn_r)), 2.
  assert (Z0 : forall k, le_val (repeat 0 k) = 0).
  { intros j; induction j as [|j IH]; [reflexivity|]. cbn [repeat le_val]. rewrite IH. reflexivity. }
  split; [reflexivity|]. split; [exact bn_build|]. split.
  { constructor; [lia|]. apply Forall_forall. intros x Hx. apply repeat_spec in Hx. lia. }
  assert (L : Z.of_nat (length (1 :: repeat 0 k)) = 2 ^ 28 + 1).
  { cbn [length]. rewrite repeat_length, Nat2Z.inj_succ, Hk. reflexivity. }
  split; [rewrite L; lia|]. split; [discriminate|]. split; [apply rval_conc; vm_compute; reflexivity|].
  split; [cbn [le_val]; rewrite Z0; reflexivity|]. split; [reflexivity|].
  unfold Raw_exp. rewrite L. replace (exp_iters (2 ^ 28 + 1)) with 0%nat by (vm_compute; reflexivity).
  cbn [exp_loop negb]. exact (fOne_spec bn_r bn_P (build_ok bn_r bn_P bn_gt1 bn_build) _ (U 0)).
Qed.
Theorem C24_exp_huge_refuted : exists q P r base s m x,
  1 < q /\ build q = Some P /\ bytes_ok s /\ Z.of_nat (length s) < 2 ^ 32 /\ r <> T 0 /\ rval q (p_n64 P) m base x /\
  le_val s = 1 /\ x = 2 /\ rval q (p_n64 P) (Raw_exp P r base s m) r 1.
Proof. exact (exp_huge (Z.to_nat (2 ^ 28)) (Z2Nat.id (2 ^ 28) (Z.pow_nonneg 2 28 (Z.le_0_2)))). Qed.
Print Assumptions C24_exp_huge_refuted.
Example C24_run : rval two_q 2 (Raw_exp two_P (U 2) (U 2) [13; 1] m23') (U 2) (6 ^ 269 mod two_q).
Proof. apply rval_conc; vm_compute; reflexivity. Qed.
Example C24_empty : rval bn_r 4 (Raw_exp bn_P (U 2) (U 2) [] m23) (U 2) 1.
Proof. apply rval_conc; vm_compute; reflexivity. Qed.

(** ** C25 *)
(** Full claim: for every element and every buffer of at least N64*8 bytes.  It
    is proved for non-zero elements and buffers of exactly that size (and for
    zero when the buffer was already cleared); the rest is false. *)
Theorem C25_write_partial : forall q P, 1 < q -> build q = Some P -> forall a data m x,
  rval q (p_n64 P) m a x -> length data = (p_n64 P * 8)%nat -> (x <> 0 \/ data = repeat 0 (p_n64 P * 8)) ->
  Raw_toRprBE P a data (Z.of_nat (p_n64 P) * 8) m = (Z.of_nat (p_n64 P) * 8, be_bytes (p_n64 P * 8) x).
Proof.
  intros q P Hq HP a data m x Hx Hl Hor. set (OK := build_ok q P Hq HP).
  destruct (Z.eq_dec x 0) as [E|N]; [|exact (toRprBE_spec q P OK a data m x Hx N Hl)].
  destruct Hor as [Hor|Hd]; [contradiction|]. subst x data.
  unfold Raw_toRprBE. rewrite Z.ltb_irrefl, (Raw_toMpz_spec q P OK a m 0 Hx). cbn [Z.eqb]. f_equal.
  unfold be_bytes. generalize (p_n64 P * 8)%nat as k. intros k.
  assert (G : le_bytes k 0 = repeat 0 k). { induction k as [|k IH]; [reflexivity|]. cbn. rewrite IH. reflexivity. }
  rewrite G. induction k as [|k IH]; [reflexivity|]. cbn [repeat rev].
  assert (Gk : le_bytes k 0 = repeat 0 k) by (cbn in G; injection G; auto).
  rewrite <- (IH Gk). clear. induction k as [|k IH]; [reflexivity|]. cbn. f_equal. exact IH.
Qed.
Print Assumptions C25_write_partial.
Theorem C25_read : forall q P, 1 < q -> build q = Some P -> forall r data bytes m,
  bytes_ok data -> Z.of_nat (p_n64 P) * 8 <= bytes <= Z.of_nat (length data) ->
  exists m', Raw_fromRprBE P r data bytes m = Some (Z.of_nat (p_n64 P) * 8, m') /\
  rval q (p_n64 P) m' r (be_val (firstn (p_n64 P * 8) data) mod q) /\ only r m m'.
Proof. intros q P Hq HP. exact (fromRprBE_spec q P (build_ok q P Hq HP)). Qed.
Print Assumptions C25_read.
Theorem C25_roundtrip_partial : forall q P, 1 < q -> build q = Some P -> forall a r data m x,
  rval q (p_n64 P) m a x -> length data = (p_n64 P * 8)%nat -> x <> 0 ->
  exists m', Raw_fromRprBE P r (snd (Raw_toRprBE P a data (Z.of_nat (p_n64 P) * 8) m)) (Z.of_nat (p_n64 P) * 8) m
    = Some (Z.of_nat (p_n64 P) * 8, m') /\ rval q (p_n64 P) m' r x /\ only r m m'.
Proof.
  intros q P Hq HP a r data m x Hx Hl N. set (OK := build_ok q P Hq HP).
  rewrite (toRprBE_spec q P OK a data m x Hx N Hl). cbn [snd].
  destruct (fromRprBE_spec q P OK r (be_bytes (p_n64 P * 8) x) (Z.of_nat (p_n64 P) * 8) m) as (m' & E & V & O).
  { apply be_bytes_ok. } { rewrite be_bytes_length. lia. }
  exists m'. split; [exact E|]. split; [|exact O].
  rewrite firstn_all2 in V by (rewrite be_bytes_length; lia). rewrite be_val_bytes, (R_256 P) in V.
  rewrite (Z.mod_small x (Rad (p_n64 P))) in V.
  2:{ rewrite (Rad_B P). pose proof (q_lt_R q P OK). destruct Hx. lia. }
  rewrite Z.mod_small in V by apply Hx. exact V.
Qed.
Print Assumptions C25_roundtrip_partial.
(** Serialising zero leaves the buffer untouched: it is read back as 1. *)
Theorem C25_zero_refuted : exists q P a r data m m',
  1 < q /\ build q = Some P /\ rval q (p_n64 P) m a 0 /\ bytes_ok data /\ length data = (p_n64 P * 8)%nat /\
  Raw_fromRprBE P r (snd (Raw_toRprBE P a data (Z.of_nat (p_n64 P) * 8) m)) (Z.of_nat (p_n64 P) * 8) m = Some (Z.of_nat (p_n64 P) * 8, m') /\
  rval q (p_n64 P) m' r 1.
Proof.
  destruct (opt_ex _ (Raw_fromRprBE bn_P (U 1) (snd (Raw_toRprBE bn_P (U 0) (repeat 0 31 ++ [1]) 32 m23)) 32 m23)
    (fun z => (fst z =? 32) && rvalb bn_r 4 (snd z) (U 1) 1)) as ([k m'] & E & H); [vm_compute; reflexivity|].
  cbn [fst snd] in H. apply andb_prop in H. destruct H as [Hk H]. apply Z.eqb_eq in Hk. subst k.
  exists bn_r, bn_P, (U 0), (U 1), (repeat 0 31 ++ [1]), m23, m'.
  split; [reflexivity|]. split; [exact bn_build|]. split; [apply rval_conc; vm_compute; reflexivity|].
  split; [repeat constructor; lia|]. split; [reflexivity|]. split; [exact E|]. apply rval_conc, H.
Qed.
Print Assumptions C25_zero_refuted.
(** With a 64-byte buffer for a 32-byte field, 6 is read back as 0. *)
Theorem C25_large_buffer_refuted : exists q P a r data bytes m m',
  1 < q /\ build q = Some P /\ rval q (p_n64 P) m a 6 /\ bytes_ok data /\ Z.of_nat (p_n64 P) * 8 <= bytes /\ Z.of_nat (length data) = bytes /\
  Raw_fromRprBE P r (snd (Raw_toRprBE P a data bytes m)) bytes m = Some (Z.of_nat (p_n64 P) * 8, m') /\
  rval q (p_n64 P) m' r 0.
Proof.
  destruct (opt_ex _ (Raw_fromRprBE bn_P (U 1) (snd (Raw_toRprBE bn_P (U 2) (repeat 0 64) 64 m23)) 64 m23)
    (fun z => (fst z =? 32) && rvalb bn_r 4 (snd z) (U 1) 0)) as ([k m'] & E & H); [vm_compute; reflexivity|].
  cbn [fst snd] in H. apply andb_prop in H. destruct H as [Hk H]. apply Z.eqb_eq in Hk. subst k.
  exists bn_r, bn_P, (U 2), (U 1), (repeat 0 64), 64, m23, m'.
  split; [reflexivity|]. split; [exact bn_build|]. split; [apply rval_conc; vm_compute; reflexivity|].
  split; [repeat constructor; lia|]. split; [vm_compute; discriminate|]. split; [reflexivity|]. split; [exact E|]. apply rval_conc, H.
Qed.
Print Assumptions C25_large_buffer_refuted.
