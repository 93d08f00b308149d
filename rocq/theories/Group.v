(** Abelian groups with Leibniz equality, and integer multiples. *)
From Coq Require Import ZArith List Lia Permutation.
Import ListNotations.
Open Scope Z_scope.

Record abgroup := {
  car :> Type;
  gadd : car -> car -> car;
  gzero : car;
  gneg : car -> car;
  gadd_comm : forall x y, gadd x y = gadd y x;
  gadd_assoc : forall x y z, gadd x (gadd y z) = gadd (gadd x y) z;
  gadd_0_l : forall x, gadd gzero x = x;
  gadd_neg : forall x, gadd x (gneg x) = gzero
}.
Arguments gadd {_}. Arguments gzero {_}. Arguments gneg {_}.
Arguments gadd_comm {_}. Arguments gadd_assoc {_}. Arguments gadd_0_l {_}. Arguments gadd_neg {_}.

(** k-fold sum, and its extension to integers. *)
Fixpoint nmul {A : abgroup} (k : nat) (x : A) : A :=
  match k with O => gzero | S k => gadd x (nmul k x) end.
Definition zmul {A : abgroup} (k : Z) (x : A) : A :=
  if k <? 0 then gneg (nmul (Z.to_nat (- k)) x) else nmul (Z.to_nat k) x.
Definition gsum {A : abgroup} (l : list A) : A := fold_right gadd gzero l.

Section Facts.
Context {A : abgroup}.
Implicit Types x y z : A.

Lemma gadd_0_r x : gadd x gzero = x.
Proof. rewrite gadd_comm. apply gadd_0_l. Qed.
Lemma gadd_cancel x y z : gadd x y = gadd x z -> y = z.
Proof.
  intros H. rewrite <- (gadd_0_l y), <- (gadd_0_l z), <- (gadd_neg x), (gadd_comm x).
  rewrite <- !gadd_assoc, H. reflexivity.
Qed.
Lemma gneg_unique x y : gadd x y = gzero -> y = gneg x.
Proof. intros H. apply (gadd_cancel x). rewrite H, gadd_neg. reflexivity. Qed.
Lemma gneg_0 : gneg gzero = gzero :> A.
Proof. symmetry. apply gneg_unique. apply gadd_0_l. Qed.
Lemma gneg_neg x : gneg (gneg x) = x.
Proof. symmetry. apply gneg_unique. rewrite gadd_comm. apply gadd_neg. Qed.
Lemma gadd_swap x y z w : gadd (gadd x y) (gadd z w) = gadd (gadd x z) (gadd y w).
Proof. rewrite <- !gadd_assoc. f_equal. rewrite !gadd_assoc. f_equal. apply gadd_comm. Qed.
Lemma gneg_add x y : gneg (gadd x y) = gadd (gneg x) (gneg y).
Proof. symmetry. apply gneg_unique. rewrite gadd_swap, !gadd_neg. apply gadd_0_l. Qed.

Lemma nmul_add a b x : nmul (a + b) x = gadd (nmul a x) (nmul b x).
Proof.
  induction a as [|a IH]; cbn; [symmetry; apply gadd_0_l|]. rewrite IH. apply gadd_assoc.
Qed.
Lemma zmul_0 x : zmul 0 x = gzero.
Proof. reflexivity. Qed.
Lemma zmul_1 x : zmul 1 x = x.
Proof. cbn. apply gadd_0_r. Qed.
Lemma zmul_neg k x : zmul (- k) x = gneg (zmul k x).
Proof.
  unfold zmul. destruct (Z.ltb_spec (- k) 0), (Z.ltb_spec k 0); try lia.
  - rewrite Z.opp_involutive. reflexivity.
  - rewrite gneg_neg. reflexivity.
  - replace k with 0 by lia. cbn. symmetry. apply gneg_0.
Qed.
Lemma zmul_succ k x : zmul (k + 1) x = gadd x (zmul k x).
Proof.
  unfold zmul. destruct (Z.ltb_spec (k + 1) 0), (Z.ltb_spec k 0); try lia.
  - replace (Z.to_nat (- k)) with (S (Z.to_nat (- (k + 1)))) by lia. cbn [nmul].
    rewrite gneg_add, gadd_assoc, gadd_neg, gadd_0_l. reflexivity.
  - replace k with (-1) by lia. change (gzero = gadd x (gneg (gadd x gzero))). rewrite gadd_0_r, gadd_neg. reflexivity.
  - replace (Z.to_nat (k + 1)) with (S (Z.to_nat k)) by lia. reflexivity.
Qed.
Lemma zmul_add a b x : zmul (a + b) x = gadd (zmul a x) (zmul b x).
Proof.
  revert a. apply Z.bi_induction.
  - intros ? ? ->. reflexivity.
  - rewrite zmul_0, gadd_0_l. reflexivity.
  - intros a. replace (Z.succ a + b) with (a + b + 1) by lia. unfold Z.succ. rewrite !zmul_succ, <- gadd_assoc.
    split; [intros ->; reflexivity|apply gadd_cancel].
Qed.
Lemma zmul_sub a b x : zmul (a - b) x = gadd (zmul a x) (gneg (zmul b x)).
Proof. unfold Z.sub. rewrite zmul_add, zmul_neg. reflexivity. Qed.
Lemma zmul_double a x : zmul (2 * a) x = gadd (zmul a x) (zmul a x).
Proof. rewrite <- zmul_add. f_equal. lia. Qed.
Lemma zmul_zero k : zmul k gzero = gzero :> A.
Proof.
  revert k. apply Z.bi_induction; [intros ? ? ->; reflexivity|reflexivity|].
  intros k. unfold Z.succ. rewrite zmul_succ, gadd_0_l. reflexivity.
Qed.
Lemma zmul_gadd k x y : zmul k (gadd x y) = gadd (zmul k x) (zmul k y).
Proof.
  revert k. apply Z.bi_induction; [intros ? ? ->; reflexivity|symmetry; apply gadd_0_l|].
  intros k. unfold Z.succ. rewrite !zmul_succ, gadd_swap.
  split; [intros ->; reflexivity|apply gadd_cancel].
Qed.
Lemma zmul_gneg k x : zmul k (gneg x) = gneg (zmul k x).
Proof. apply gneg_unique. rewrite <- zmul_gadd, gadd_neg. apply zmul_zero. Qed.
Lemma zmul_zmul a b x : zmul a (zmul b x) = zmul (a * b) x.
Proof.
  revert a. apply Z.bi_induction; [intros ? ? ->; reflexivity|reflexivity|].
  intros a. unfold Z.succ. rewrite zmul_succ. replace ((a + 1) * b) with (b + a * b) by lia. rewrite zmul_add.
  split; [intros ->; reflexivity|apply gadd_cancel].
Qed.

Lemma gsum_app (l l' : list A) : gsum (l ++ l') = gadd (gsum l) (gsum l').
Proof. induction l as [|x l IH]; cbn; [symmetry; apply gadd_0_l|]. fold (gsum (l ++ l')). rewrite IH. apply gadd_assoc. Qed.
Lemma gsum_perm (l l' : list A) : Permutation l l' -> gsum l = gsum l'.
Proof.
  induction 1; cbn; [reflexivity|f_equal; assumption| |congruence].
  rewrite !gadd_assoc. f_equal. apply gadd_comm.
Qed.
Lemma gsum_zmul k (l : list A) : gsum (map (zmul k) l) = zmul k (gsum l).
Proof. induction l as [|x l IH]; cbn; [symmetry; apply zmul_zero|]. fold (gsum l). fold (gsum (map (zmul k) l)). rewrite IH, zmul_gadd. reflexivity. Qed.
Lemma gsum_map_gadd (B : Type) (f g : B -> A) l : gsum (map (fun b => gadd (f b) (g b)) l) = gadd (gsum (map f l)) (gsum (map g l)).
Proof. induction l as [|b l IH]; [symmetry; apply gadd_0_l|]. cbn. unfold gsum in IH. rewrite IH, gadd_swap. reflexivity. Qed.
Lemma gsum_zeros (B : Type) (l : list B) : gsum (map (fun _ => gzero) l) = gzero :> A.
Proof. induction l as [|b l IH]; [reflexivity|]. cbn. unfold gsum in IH. rewrite IH. apply gadd_0_l. Qed.
(** Exchange of two finite sums. *)
Lemma gsum_swap (B C : Type) (f : B -> C -> A) l l' :
  gsum (map (fun b => gsum (map (f b) l')) l) = gsum (map (fun c => gsum (map (fun b => f b c) l)) l').
Proof.
  induction l as [|b l IH].
  - cbn. symmetry. apply gsum_zeros.
  - cbn [map]. cbn [gsum fold_right]. fold (gsum (map (fun b => gsum (map (f b) l')) l)). rewrite IH.
    rewrite <- gsum_map_gadd. reflexivity.
Qed.
End Facts.

(** Instances. *)
Definition Zgroup : abgroup := {| car := Z; gadd := Z.add; gzero := 0; gneg := Z.opp;
  gadd_comm := Z.add_comm; gadd_assoc := Z.add_assoc; gadd_0_l := Z.add_0_l; gadd_neg := Z.add_opp_diag_r |}.
Lemma zmul_Z k (x : Zgroup) : zmul k x = k * x.
Proof.
  revert k. apply Z.bi_induction; [intros ? ? ->; reflexivity|reflexivity|].
  intros k. unfold Z.succ. rewrite zmul_succ, Z.mul_add_distr_r, Z.mul_1_l. cbn. lia.
Qed.
