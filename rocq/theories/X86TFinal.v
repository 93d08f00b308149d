(** The tagged x86-64 operations: from the proofs on the machine to the statements. *)
From Coq Require Import ZArith List Bool Arith Lia.
From Verif Require Import Limbs LimbsFacts Gen GenFacts Spec Fr FrSpec X86 X86Gen X86Sim X86Call X86Routines X86T X86TSpec X86TInv X86TConv X86TMul.
Import ListNotations.
Open Scope Z_scope.
Section F.
Variable q : Z.
Variable P : zq.
Hypothesis OK : zq_ok q P.
Notation n := (p_n64 P).
Notation opt := (p_opt P).
Variable lay : sym -> Z.
Variable ra : Z.
Hypothesis Hra : 0 <= ra < B.
Variable m : mach.
Notation sb := (stackBytes n opt).
Lemma D1_pos : 0 <= D1 n opt. Proof. unfold D1. pose proof (sb_pos P). lia. Qed.
Lemma D1_16 : 16 + sb <= D1 n opt. Proof. unfold D1. lia. Qed.
Lemma D1_8 : 8 + sb <= D1 n opt. Proof. unfold D1. lia. Qed.
Lemma typed_of T D p v L m' : (exists s t l, L = word_of s t :: l /\ is_int32 s /\ denotes q n s t l v /\ T t) -> Cres D (S n) p L m m' -> xtyped T q n m' p v /\ xyields q n D p v m m'.
Proof.
  intros (s & t & l & -> & H1 & H2 & H3) (A & F & _). assert (X : xfields n m' p s t l) by (split; [exact H1|]; split; [apply H2|exact A]). split; [exists s, t, l; auto|]. split; [exists s, t, l; auto|exact F].
Qed.
Lemma yields_of D p v L m' : valRes q P v L -> Cres D (S n) p L m m' -> xyields q n D p v m m'.
Proof. intros (s & t & l & H1 & H2 & H3) C. apply (typed_of (fun _ => True) D p v L m'); [|exact C]. exists s, t, l. auto. Qed.
Section One.
Hypothesis Rdy : xready P lay (D1 n opt) m.
Notation pr := (regs m RDI).
Hypothesis Dst : xdest P lay (D1 n opt) m pr.
Variable v : Z.
Hypothesis Arg : xarg q n (D1 n opt) m pr (regs m RSI) v.
Lemma F_toMontgomery : neededFor n opt <> 12%nat -> exists m', f_toMontgomery lay ra n opt m = Some m' /\ xyields q n (D1 n opt) pr v m m' /\ xtyped (fun t => t = SHORTMONTGOMERY \/ t = LONGMONTGOMERY) q n m' pr v.
Proof.
  intros N12. destruct Arg as ((s & t & l & F & Hv) & O & S). destruct (toMontgomery_call q P OK lay ra Hra m (D1 n opt) D1_pos Rdy pr Dst _ s t l v F Hv O S eq_refl eq_refl D1_8 N12) as (m' & L & E & RS & C).
  exists m'. split; [exact E|]. destruct (typed_of (fun t => t = SHORTMONTGOMERY \/ t = LONGMONTGOMERY) _ _ v _ _ ltac:(destruct RS as (s' & t' & l' & H1 & H2 & H3 & H4 & _); exists s', t', l'; split; [exact H1|]; split; [exact H2|]; split; [exact H3|]; destruct H3 as (_ & _ & [[-> _] | [[-> _] | [[-> _] | [-> _]]]]); try discriminate H4; auto) C) as [H1 H2]. auto.
Qed.
Lemma F_toNormal : neededFor n opt <> 12%nat -> n <> 7%nat -> exists m', f_toNormal lay ra n opt m = Some m' /\ xyields q n (D1 n opt) pr v m m' /\ xtyped (fun t => t <> LONGMONTGOMERY) q n m' pr v.
Proof.
  intros N12 N7. destruct Arg as ((s & t & l & F & Hv) & O & S). destruct (toNormal_call q P OK lay ra Hra m (D1 n opt) D1_pos Rdy pr Dst _ s t l v F Hv O S eq_refl eq_refl D1_8 N12 N7) as (m' & L & E & RS & C).
  exists m'. split; [exact E|]. destruct (typed_of (fun t => t <> LONGMONTGOMERY) _ _ v _ _ ltac:(destruct RS as (s' & t' & l' & H1 & H2 & H3 & H4 & _); exists s', t', l'; split; [exact H1|]; split; [exact H2|]; split; [exact H3|exact H4]) C) as [H1 H2]. auto.
Qed.
Lemma F_toLongNormal : neededFor n opt <> 12%nat -> n <> 7%nat -> 2 ^ 32 < q -> exists m', f_toLongNormal lay ra n opt m = Some m' /\ xyields q n (D1 n opt) pr v m m' /\ xtyped (fun t => t = LONG) q n m' pr v.
Proof.
  intros N12 N7 HQ. destruct Arg as ((s & t & l & F & Hv) & O & S). destruct (toLongNormal_call q P OK lay ra Hra m (D1 n opt) D1_pos Rdy pr Dst _ s t l v F Hv O S eq_refl eq_refl D1_8 HQ N12 N7) as (m' & L & E & RS & C).
  exists m'. split; [exact E|]. destruct (typed_of (fun t => t = LONG) _ _ v _ _ ltac:(destruct RS as (s' & l' & H1 & H2 & H3 & H4); exists s', LONG, l'; split; [exact H1|]; split; [exact H2|]; split; [split; [apply Hv|split; [exact H3|right; right; left; auto]]|reflexivity]) C) as [H1 H2]. auto.
Qed.
Lemma F_neg : 2 ^ 32 < q -> exists m', f_neg lay ra n m = Some m' /\ xyields q n (D1 n opt) pr ((- v) mod q) m m'.
Proof.
  intros HQ. destruct Arg as ((s & t & l & F & Hv) & O & S). destruct (neg_call q P OK lay ra Hra m (D1 n opt) D1_pos Rdy pr Dst _ s t l v F Hv O S eq_refl eq_refl HQ D1_16) as (m' & L & E & RS & C).
  exists m'. split; [exact E|]. exact (yields_of _ _ _ _ _ RS C).
Qed.
Lemma F_square : 2 ^ 62 < q -> exists m', f_square lay ra n opt m = Some m' /\ xyields q n (D1 n opt) pr ((v * v) mod q) m m'.
Proof.
  intros HQ. destruct Arg as ((s & t & l & F & Hv) & O & S). edestruct (square_call q P OK lay ra Hra m (D1 n opt) D1_16 Rdy pr Dst eq_refl) as (m' & L & E & RS & C); [exact F|exact Hv|exact O|exact S|reflexivity|exact HQ|].
  exists m'. split; [exact E|]. exact (yields_of _ _ _ _ _ RS C).
Qed.
Lemma F_mul v2 : 2 ^ 62 < q -> neededFor n opt <> 12%nat -> xarg q n (D1 n opt) m pr (regs m RDX) v2 -> exists m', f_mul lay ra n opt m = Some m' /\ xyields q n (D1 n opt) pr ((v * v2) mod q) m m'.
Proof.
  intros HQ N12 ((s2 & t2 & l2 & F2 & Hv2) & O2 & S2). destruct Arg as ((s & t & l & F & Hv) & O & S). edestruct (mul_call q P OK lay ra Hra m (D1 n opt) D1_16 Rdy pr Dst eq_refl) as (m' & L & E & RS & C); [exact F|exact Hv|exact O|exact S|reflexivity|exact HQ|exact F2|exact Hv2|exact O2|exact S2|reflexivity|exact N12|].
  exists m'. split; [exact E|]. exact (yields_of _ _ _ _ _ RS C).
Qed.
End One.
End F.
