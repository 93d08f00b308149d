From Coq Require Import ZArith List Lia Bool ZifyBool.
From Verif Require Import Text.
Import ListNotations.
Open Scope Z_scope.

Lemma digit_of_char d : 0 <= d < 36 -> digit_of (digit_char d) = d.
Proof.
  intros H. unfold digit_of, digit_char. destruct (Z.ltb_spec d 10).
  - replace ((48 <=? 48 + d) && (48 + d <=? 57)) with true by lia. lia.
  - replace ((48 <=? 87 + d) && (87 + d <=? 57)) with false by lia.
    replace ((97 <=? 87 + d) && (87 + d <=? 122)) with true by lia. lia.
Qed.
Lemma digit_char_range d : 0 <= d < 36 -> 48 <= digit_char d <= 57 \/ 97 <= digit_char d <= 122.
Proof. intros. unfold digit_char. destruct (Z.ltb_spec d 10); lia. Qed.

Lemma horner_app b s t : horner b (s ++ t) = fold_left (fun acc c => acc * b + digit_of c) t (horner b s).
Proof. unfold horner. apply fold_left_app. Qed.

Definition canon (base : Z) (s : list Z) := Forall (fun c => exists d, 0 <= d < base /\ c = digit_char d) s.

Lemma digits_rev_spec base : 2 <= base <= 36 -> forall fuel v, 0 <= v < 2 ^ Z.of_nat fuel -> (1 <= fuel)%nat ->
  let s := rev (digits_rev fuel base v) in
  s <> [] /\ canon base s /\ horner base s = v /\ (length s = 1%nat \/ hd 0 s <> 48).
Proof.
  intros Hb. induction fuel as [|k IH]; intros v Hv Hf; [lia|]. cbn [digits_rev].
  destruct (Z.ltb_spec v base) as [L|L].
  - cbn. split; [discriminate|]. split; [constructor; [exists v; split; [lia|reflexivity]|constructor]|].
    split; [|left; reflexivity]. unfold horner. cbn. rewrite digit_of_char by lia. reflexivity.
  - rewrite Nat2Z.inj_succ, Z.pow_succ_r in Hv by lia.
    assert (Hd : 0 <= v / base < 2 ^ Z.of_nat k).
    { split; [apply Z.div_pos; lia|]. apply Z.div_lt_upper_bound; [lia|]. nia. }
    assert (Hd1 : 1 <= v / base) by (apply Z.div_le_lower_bound; lia).
    assert (k <> 0)%nat. { intros ->. cbn in Hd. lia. }
    destruct (IH (v / base) Hd ltac:(lia)) as (N & C & Hh & Z0). cbn [rev].
    set (s := rev (digits_rev k base (v / base))) in *.
    pose proof (Z.mod_pos_bound v base ltac:(lia)).
    split; [destruct s; discriminate|]. split.
    { apply Forall_app. split; [exact C|]. constructor; [|constructor]. exists (v mod base). split; [lia|reflexivity]. }
    split.
    { rewrite horner_app, Hh. cbn. rewrite digit_of_char by lia. pose proof (Z.div_mod v base ltac:(lia)). lia. }
    right. destruct s as [|c s']; [congruence|]. cbn [app hd]. destruct Z0 as [E|E]; [|exact E].
    cbn in E. assert (s' = []) by (destruct s'; [auto|discriminate]). subst s'.
    unfold horner in Hh. cbn in Hh. inversion C as [|? ? (d & Hd' & ->) _]; subst.
    rewrite digit_of_char in Hh by lia. intros E48. unfold digit_char in E48.
    destruct (Z.ltb_spec d 10); lia.
Qed.

Lemma get_str_numeral base v : 2 <= base <= 36 -> 0 <= v -> numeral base (mpz_get_str base v) v.
Proof.
  intros Hb Hv. unfold mpz_get_str. apply digits_rev_spec; [auto| |lia].
  split; [auto|]. pose proof (Z.log2_nonneg v). destruct (Z.eq_dec v 0) as [->|]; [cbn; lia|].
  pose proof (Z.log2_spec v ltac:(lia)). rewrite Nat2Z.inj_succ, Z2Nat.id; lia.
Qed.

Lemma digits_not_space base s : canon base s -> 2 <= base <= 36 -> filter (fun c => negb (is_space c)) s = s.
Proof.
  intros C Hb. induction C as [|c s (d & Hd & ->) C IH]; [reflexivity|]. cbn [filter].
  replace (is_space (digit_char d)) with false. { cbn. rewrite IH; reflexivity. }
  unfold is_space. pose proof (digit_char_range d ltac:(lia)). lia.
Qed.
Lemma canon_digits base s : canon base s -> 2 <= base <= 36 -> forallb (is_digit base) s = true.
Proof.
  intros C Hb. apply forallb_forall. unfold canon in C. rewrite Forall_forall in C. intros c Hc. destruct (C c Hc) as (d & Hd & ->).
  unfold is_digit. rewrite digit_of_char by lia. lia.
Qed.
Lemma set_str_numeral base s v : 2 <= base <= 36 -> numeral base s v -> mpz_set_str base s = Some v.
Proof.
  intros Hb (N & C & H & _). unfold mpz_set_str. rewrite (digits_not_space base) by auto.
  destruct s as [|c s]; [congruence|].
  assert (Hc : (c =? 45) = false).
  { inversion C as [|? ? (d & Hd & ->) _]; subst. pose proof (digit_char_range d ltac:(lia)). lia. }
  rewrite Hc. rewrite (canon_digits base) by auto. rewrite H. reflexivity.
Qed.

Lemma digit_bounds base c : base <= 36 -> is_digit base c = true -> 48 <= c <= 122.
Proof.
  unfold is_digit, digit_of. intros Hb.
  destruct ((48 <=? c) && (c <=? 57)) eqn:E1; [lia|].
  destruct ((97 <=? c) && (c <=? 122)) eqn:E2; [lia|].
  destruct ((65 <=? c) && (c <=? 90)) eqn:E3; lia.
Qed.
Lemma digit_of_nonneg c : 0 <= digit_of c.
Proof.
  unfold digit_of.
  destruct ((48 <=? c) && (c <=? 57)) eqn:E1; [lia|].
  destruct ((97 <=? c) && (c <=? 122)) eqn:E2; [lia|].
  destruct ((65 <=? c) && (c <=? 90)) eqn:E3; lia.
Qed.

(** Any string of digits, signed or not. *)
Lemma set_str_digits base ds : 2 <= base <= 36 -> ds <> [] -> forallb (is_digit base) ds = true ->
  mpz_set_str base ds = Some (horner base ds) /\ mpz_set_str base (45 :: ds) = Some (- horner base ds).
Proof.
  intros Hb N D.
  assert (F : filter (fun c => negb (is_space c)) ds = ds).
  { clear N. induction ds as [|c ds IH]; [reflexivity|]. cbn [forallb] in D. apply andb_true_iff in D as [D1 D2].
    cbn [filter]. replace (is_space c) with false; [cbn; rewrite IH; auto|].
    apply digit_bounds in D1; [|lia]. unfold is_space. lia. }
  unfold mpz_set_str. cbn [filter]. change (negb (is_space 45)) with true. cbn iota. rewrite F.
  change (45 =? 45) with true. cbn iota. destruct ds as [|c ds]; [congruence|].
  assert (Hc : (c =? 45) = false).
  { cbn [forallb] in D. apply andb_true_iff in D as [D1 D2]. apply digit_bounds in D1; [|lia]. lia. }
  rewrite Hc, D. split; reflexivity.
Qed.
Lemma horner_nonneg base ds : 2 <= base <= 36 -> 0 <= horner base ds.
Proof.
  intros Hb. unfold horner. cut (forall a, 0 <= a -> 0 <= fold_left (fun acc c => acc * base + digit_of c) ds a); [intros H; apply H; lia|].
  induction ds as [|c ds IH]; intros a Ha; [auto|]. cbn [fold_left]. apply IH.
  pose proof (digit_of_nonneg c). nia.
Qed.

(** The numeral of a value is unique, so [numeral] determines the text. *)
Lemma horner_bound base s : 2 <= base <= 36 -> canon base s -> 0 <= horner base s < base ^ Z.of_nat (length s).
Proof.
  intros Hb. induction s as [|c s IH] using rev_ind; intros C; [cbn; lia|].
  apply Forall_app in C as [C1 C2]. inversion C2 as [|? ? (d & Hd & ->) _]; subst.
  rewrite horner_app. cbn. rewrite digit_of_char by lia. rewrite app_length, Nat.add_1_r, Nat2Z.inj_succ, Z.pow_succ_r by lia.
  specialize (IH C1). nia.
Qed.
