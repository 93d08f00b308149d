(** The tagged x86-64 addition and subtraction: from the proofs on the machine to the statements. *)
From Coq Require Import ZArith List Bool Arith Lia.
From Verif Require Import Limbs LimbsFacts Gen GenFacts Spec Fr FrSpec X86 X86Gen X86Sim X86Call X86Routines X86T X86TSpec X86TInv X86TConv X86TFinal X86TAdd.
Import ListNotations.
Open Scope Z_scope.
Lemma type_word s t : word_of s t / W32 = t.
Proof. unfold word_of. rewrite Z.div_add by discriminate. rewrite Z.div_small by (apply Z.mod_pos_bound; reflexivity). reflexivity. Qed.
Lemma types q n s t l v : denotes q n s t l v -> In t [SHORT; SHORTMONTGOMERY; LONG; LONGMONTGOMERY].
Proof. intros (_ & _ & [[-> _] | [[-> _] | [[-> _] | [-> _]]]]); cbn [In]; auto. Qed.
Lemma tmont_is t : In t [SHORT; SHORTMONTGOMERY; LONG; LONGMONTGOMERY] -> tmont t = isMont t /\ tlong t = isLong t.
Proof. cbn [In]. intros [<- | [<- | [<- | [<- | []]]]]; vm_compute; auto. Qed.
Section F.
Variable q : Z.
Variable P : zq.
Hypothesis OK : zq_ok q P.
Notation n := (p_n64 P).
Notation opt := (p_opt P).
Variable lay : sym -> Z.
Variable ra : Z.
Hypothesis Hra : 0 <= ra < B.
Variable m : mach.
Hypothesis HQ : 2 ^ 32 < q.
Hypothesis N12 : neededFor n opt <> 12%nat.
Hypothesis Rdy : xready P lay (D2 n opt) m.
Notation pr := (regs m RDI).
Hypothesis Dst : xdest P lay (D2 n opt) m pr.
Variables a b : Z.
Hypothesis Aa : xarg q n (D2 n opt) m pr (regs m RSI) a.
Hypothesis Ab : xarg q n (D2 n opt) m pr (regs m RDX) b.
Lemma D2_ok : stackBytes n opt + 16 * Z.of_nat (S n) + 160 <= D2 n opt. Proof. unfold D2. lia. Qed.
Ltac tys F1 V1 F2 V2 := pose proof (e_head P m _ _ _ _ F1) as E1; pose proof (e_head P m _ _ _ _ F2) as E2; pose proof (types _ _ _ _ _ _ V1) as T1; pose proof (types _ _ _ _ _ _ V2) as T2;
  destruct (tmont_is _ T1) as [M1 L1]; destruct (tmont_is _ T2) as [M2 L2].
Lemma F_add : xadd_alias_ok m pr (regs m RSI) (regs m RDX) -> exists m', f_add lay ra n opt m = Some m' /\ xyields q n (D2 n opt) pr ((a + b) mod q) m m'.
Proof.
  intros [AL1 AL2]. destruct Aa as ((s1 & t1 & l1 & F1 & V1) & O1 & S1). destruct Ab as ((s2 & t2 & l2 & F2 & V2) & O2 & S2). tys F1 V1 F2 V2. unfold xtype in AL1, AL2. rewrite E1, E2, !type_word in AL1, AL2.
  destruct (add_call q P OK lay ra Hra m (D2 n opt) D2_ok Rdy pr Dst eq_refl HQ N12 _ s1 t1 l1 a F1 V1 O1 S1 eq_refl _ s2 t2 l2 b F2 V2 O2 S2 eq_refl) as (m' & L & E & RS & C).
  - intros H1 H2 H3. destruct S1 as [S1|S1]; [|exact S1]. exfalso. apply (AL1 (eq_sym S1)); [congruence|]. cbn [In] in T2. destruct T2 as [<- | [<- | [<- | [<- | []]]]]; try discriminate; reflexivity.
  - intros H1 H2 H3. destruct S2 as [S2|S2]; [|exact S2]. exfalso. apply (AL2 (eq_sym S2)); [congruence|]. cbn [In] in T1. destruct T1 as [<- | [<- | [<- | [<- | []]]]]; try discriminate; reflexivity.
  - exists m'. split; [exact E|]. exact (yields_of q P m _ _ _ _ _ RS C).
Qed.
Lemma F_sub : xsub_alias_ok m pr (regs m RSI) (regs m RDX) -> exists m', f_sub lay ra n opt m = Some m' /\ xyields q n (D2 n opt) pr ((a - b) mod q) m m'.
Proof.
  intros [[AL1 AL2] AL3]. destruct Aa as ((s1 & t1 & l1 & F1 & V1) & O1 & S1). destruct Ab as ((s2 & t2 & l2 & F2 & V2) & O2 & S2). tys F1 V1 F2 V2. unfold xtype, xshort in AL1, AL2, AL3. rewrite E1, E2, !type_word in AL1, AL2, AL3.
  rewrite sx32_word in AL3 by apply F1.
  destruct (sub_call q P OK lay ra Hra m (D2 n opt) D2_ok Rdy pr Dst eq_refl HQ N12 _ s1 t1 l1 a F1 V1 O1 S1 eq_refl _ s2 t2 l2 b F2 V2 O2 S2 eq_refl) as (m' & L & E & RS & C).
  - intros H1 H2 H3. destruct S1 as [S1|S1]; [|exact S1]. exfalso. apply (AL1 (eq_sym S1)); [congruence|]. cbn [In] in T2. destruct T2 as [<- | [<- | [<- | [<- | []]]]]; try discriminate; reflexivity.
  - intros H1 H2 H3. destruct S2 as [S2|S2]; [|exact S2]. exfalso. apply (AL2 (eq_sym S2)); [congruence|]. cbn [In] in T1. destruct T1 as [<- | [<- | [<- | [<- | []]]]]; try discriminate; reflexivity.
  - intros H1 H2 H3 H4. destruct S2 as [S2|S2]; [|exact S2]. exfalso. assert (0 <= s1); [|lia]. apply (AL3 (eq_sym S2)); [|congruence]. cbn [In] in T2. destruct T2 as [<- | [<- | [<- | [<- | []]]]]; try discriminate; reflexivity.
  - exists m'. split; [exact E|]. exact (yields_of q P m _ _ _ _ _ RS C).
Qed.
End F.
