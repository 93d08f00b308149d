(** The tagged x86-64 bitwise operations: from the proofs on the machine to the statements. *)
From Coq Require Import ZArith List Bool Arith Lia.
From Verif Require Import Limbs LimbsFacts Gen GenFacts Spec Fr FrSpec X86 X86Gen X86Sim X86Call X86Routines X86T X86TSpec X86TInv X86TConv X86TFinal X86TAdd X86TFinal2 X86TBit.
Import ListNotations.
Open Scope Z_scope.
Section F.
Variable q : Z.
Variable P : zq.
Hypothesis OK : zq_ok q P.
Notation n := (p_n64 P).
Notation opt := (p_opt P).
Variable lay : sym -> Z.
Variable ra : Z.
Hypothesis Hra : 0 <= ra < B.
Variable m : mach.
Hypothesis HQ : 2 ^ 32 < q.
Hypothesis N12 : neededFor n opt <> 12%nat.
Hypothesis N7 : n <> 7%nat.
Hypothesis Rdy : xready P lay (D2 n opt) m.
Notation pr := (regs m RDI).
Hypothesis Dst : xdest P lay (D2 n opt) m pr.
Lemma fold_bitlen x : fold_q q P x = (x mod 2 ^ bitlen q) mod q.
Proof.
  unfold fold_q, bitlen. pose proof (zk_bits _ _ OK) as [H1 H2]. replace (p_bits P) with (Z.log2 q + 1); [reflexivity|].
  rewrite (Z.log2_unique q (p_bits P - 1)); [lia| |split; [exact H1|]].
  - destruct (Z.neg_nonneg_cases (p_bits P - 1)) as [H|H]; [|exact H]. pose proof (zk_bits_range _ _ OK). exfalso. assert (p_bits P < 1) by lia. assert (2 ^ p_bits P <= 2 ^ 0) by (apply Z.pow_le_mono_r; lia). lia.
  - replace (Z.succ (p_bits P - 1)) with (p_bits P) by lia. exact H2.
Qed.
Variables a b : Z.
Hypothesis Aa : xarg q n (D2 n opt) m pr (regs m RSI) a.
Lemma plain t : In t [SHORT; SHORTMONTGOMERY; LONG; LONGMONTGOMERY] -> t = LONG -> tlong t = true /\ tmont t = false.
Proof. intros _ ->. split; reflexivity. Qed.
Lemma F_bin o (Ab : xarg q n (D2 n opt) m pr (regs m RDX) b) : xbit_alias_ok m pr (regs m RSI) (regs m RDX) ->
  exists m', f_bin lay ra n opt o m = Some m' /\ xyields q n (D2 n opt) pr ((bit_op o a b mod 2 ^ bitlen q) mod q) m m'.
Proof.
  intros [AL1 AL2]. destruct Aa as ((s1 & t1 & l1 & F1 & V1) & O1 & S1). destruct Ab as ((s2 & t2 & l2 & F2 & V2) & O2 & S2).
  pose proof (e_head P m _ _ _ _ F1) as E1; pose proof (e_head P m _ _ _ _ F2) as E2; pose proof (types _ _ _ _ _ _ V1) as T1; pose proof (types _ _ _ _ _ _ V2) as T2.
  destruct (tmont_is _ T1) as [M1 L1]; destruct (tmont_is _ T2) as [M2 L2].
  unfold xbit_alias1, xtype, xshort in AL1, AL2. rewrite E1, E2, !type_word in AL1, AL2. rewrite !sx32_word in AL1, AL2 by (apply F1 || apply F2). rewrite <- L1, <- L2 in AL1, AL2.
  destruct (bin_call q P OK lay ra Hra m (D2 n opt) (D2_ok P N12) Rdy pr Dst eq_refl HQ N12 N7 o _ s1 t1 l1 a F1 V1 O1 eq_refl _ s2 t2 l2 b F2 V2 O2 eq_refl S1 S2) as (m' & L & E & RS & C).
  - intros H. destruct (AL1 (eq_sym H)) as [T|T]; [left; exact (plain _ T1 T)|right; exact T].
  - intros H. destruct (AL2 (eq_sym H)) as [T|T]; [left; exact (plain _ T2 T)|right; exact T].
  - exists m'. split; [exact E|]. rewrite <- fold_bitlen. exact (yields_of q P m _ _ _ _ _ RS C).
Qed.
Lemma F_bnot : xbnot_alias_ok m pr (regs m RSI) -> exists m', f_bnot lay ra n opt m = Some m' /\ xyields q n (D2 n opt) pr ((Z.lnot a mod 2 ^ bitlen q) mod q) m m'.
Proof.
  intros AL1. destruct Aa as ((s1 & t1 & l1 & F1 & V1) & O1 & S1).
  pose proof (e_head P m _ _ _ _ F1) as E1; pose proof (types _ _ _ _ _ _ V1) as T1. unfold xbnot_alias_ok, xtype in AL1. rewrite E1, type_word in AL1.
  destruct (bnot_call q P OK lay ra Hra m (D2 n opt) (D2_ok P N12) Rdy pr Dst eq_refl HQ N12 N7 _ s1 t1 l1 a F1 V1 O1 S1 eq_refl) as (m' & L & E & RS & C).
  - intros H. exact (plain _ T1 (AL1 (eq_sym H))).
  - exists m'. split; [exact E|]. rewrite <- fold_bitlen. exact (yields_of q P m _ _ _ _ _ RS C).
Qed.
End F.
