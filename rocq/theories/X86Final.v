(** The x86-64 routines against the portable ones. *)
From Coq Require Import ZArith List Bool Arith Lia.
From Verif Require Import Limbs LimbsFacts Gen GenFacts Raw Spec MontFacts RawFacts X86 X86Gen X86Sim X86Mont X86Call X86Routines X86Raw X86RawFacts X86RawFacts2 X86RawFacts3.
Import ListNotations.
Open Scope Z_scope.

Section F.
Variable q : Z.
Variable P : zq.
Hypothesis OK : zq_ok q P.
Notation n := (p_n64 P).
Notation opt := (p_opt P).
Lemma Rad_B : Rad n = B ^ Z.of_nat n.
Proof. unfold Rad. symmetry. apply Bpow_2pow. lia. Qed.
(** the limbs are determined by the residue *)
Lemma limbs_unique l l' : limbs_ok n l -> limbs_ok n l' -> 0 <= eval l < q -> 0 <= eval l' < q -> (eval l * B ^ Z.of_nat n) mod q = (eval l' * Rad n) mod q -> l = l'.
Proof.
  intros L L' H H' E. apply (eval_inj n); [exact L|exact L'|]. rewrite <- Rad_B in E. apply (Rad_cancel q P OK) in E. rewrite !Z.mod_small in E by assumption. exact E.
Qed.
Lemma nonneg l : limbs_ok n l -> eval l < q -> 0 <= eval l < q.
Proof. intros H Hq. pose proof (eval_bound n l H). lia. Qed.
Section Call.
Variable lay : sym -> Z.
Variable m : mach.
Hypothesis L : loaded P lay m.
Hypothesis T : target n opt m (regs m RDI).
Variables a b : list Z.
Hypothesis Ha : limbs_ok n a.
Hypothesis Pa : operand n opt m (regs m RSI) a.
Variable mm : rmem.
Hypothesis Ea : mm (U 1) = a.
Hypothesis Eb : mm (U 2) = b.
Lemma mul_agree : limbs_ok n b -> operand n opt m (regs m RDX) b -> eval b < q ->
  exists code m', asm_mul n opt = Some code /\ call lay code m = Some m' /\ returned n opt (regs m RDI) (rawMMul P (U 0) (U 1) (U 2) mm (U 0)) m m'.
Proof.
  intros Hb Pb Hbq. destruct (mul_call q P OK lay m L T a b Ha Pa Hb Pb Hbq) as (code & E1 & m' & l & E2 & L1 & L2 & L3 & R). exists code, m'. split; [exact E1|]. split; [exact E2|].
  destruct (rawMMul_spec q P OK (U 0) (U 1) (U 2) mm (eval b)) as (z & (H1 & H2 & H3) & H4 & _); [rewrite Ea; exact Ha|split; [rewrite Eb; exact Hb|split; [rewrite Eb; reflexivity|apply nonneg; assumption]]|].
  rewrite <- (limbs_unique l (rawMMul P (U 0) (U 1) (U 2) mm (U 0))); [exact R|exact L1|exact H1|apply nonneg; assumption|rewrite H2; exact H3|]. rewrite L3, H2, H4, Ea. reflexivity.
Qed.
Lemma square_agree : eval a < q -> exists code m', asm_square n opt = Some code /\ call lay code m = Some m' /\ returned n opt (regs m RDI) (rawMSquare P (U 0) (U 1) mm (U 0)) m m'.
Proof.
  intros Haq. destruct (square_call q P OK lay m L T a Ha Pa Haq) as (code & E1 & m' & l & E2 & L1 & L2 & L3 & R). exists code, m'. split; [exact E1|]. split; [exact E2|].
  destruct (rawMSquare_spec q P OK (U 0) (U 1) mm (eval a)) as (z & (H1 & H2 & H3) & H4 & _); [split; [rewrite Ea; exact Ha|split; [rewrite Ea; reflexivity|apply nonneg; assumption]]|].
  rewrite <- (limbs_unique l (rawMSquare P (U 0) (U 1) mm (U 0))); [exact R|exact L1|exact H1|apply nonneg; assumption|rewrite H2; exact H3|]. rewrite L3, H2, H4. reflexivity.
Qed.
Lemma mul1_agree : neededFor n opt <> 12%nat -> eval a < q -> exists code m', asm_mul1 n opt = Some code /\ call lay code m = Some m' /\ returned n opt (regs m RDI) (rawMMul1 P (U 0) (U 1) (regs m RDX) mm (U 0)) m m'.
Proof.
  intros N Haq. destruct (mul1_call q P OK lay m L T a Ha Pa N Haq) as (code & E1 & m' & l & E2 & L1 & L2 & L3 & R). exists code, m'. split; [exact E1|]. split; [exact E2|].
  destruct (rawMMul1_spec q P OK (U 0) (U 1) (regs m RDX) mm (eval a)) as (z & (H1 & H2 & H3) & H4 & _); [split; [rewrite Ea; exact Ha|split; [rewrite Ea; reflexivity|apply nonneg; assumption]]|apply (ld_words _ _ _ L)|].
  rewrite <- (limbs_unique l (rawMMul1 P (U 0) (U 1) (regs m RDX) mm (U 0))); [exact R|exact L1|exact H1|apply nonneg; assumption|rewrite H2; exact H3|]. rewrite L3, H2, H4, Z.mul_comm. reflexivity.
Qed.
Lemma from_agree : neededFor n opt <> 12%nat -> n <> 7%nat -> exists code m', asm_from n opt = Some code /\ call lay code m = Some m' /\ returned n opt (regs m RDI) (rawFromMontgomery P (U 0) (U 1) mm (U 0)) m m'.
Proof.
  intros N N7. destruct (from_call q P OK lay m L T a Ha Pa N N7) as (code & E1 & m' & l & E2 & L1 & L2 & L3 & R). exists code, m'. split; [exact E1|]. split; [exact E2|].
  destruct (rawFromMontgomery_spec q P OK (U 0) (U 1) mm) as (z & (H1 & H2 & H3) & H4 & _); [rewrite Ea; exact Ha|].
  rewrite <- (limbs_unique l (rawFromMontgomery P (U 0) (U 1) mm (U 0))); [exact R|exact L1|exact H1|apply nonneg; assumption|rewrite H2; exact H3|]. rewrite L3, H2, H4, Ea. reflexivity.
Qed.
End Call.

(** *** the straight-line routines *)
Section Raw.
Variable lay : sym -> Z.
Variable m : mach.
Hypothesis W : words m.
Notation pd := (regs m RDI).
Hypothesis Pd : ptr pd n.
Hypothesis Hret : forall j, (j < n)%nat -> regs m RSP <> pd + 8 * Z.of_nat j.
Variables a b : list Z.
Variable mm : rmem.
Hypothesis Ha : limbs_ok n a.
Hypothesis Hb : limbs_ok n b.
Hypothesis Ea : mm (U 1) = a.
Hypothesis Eb : mm (U 2) = b.
Lemma at_ptr p l : limbs_ok n l -> at_addr m p l -> ptr p n /\ vals m p n = eval l.
Proof.
  intros [E _] (A1 & A2 & A3 & A4). rewrite E in A3, A4. split; [split; [exact A1|split; [exact A2|exact A3]]|]. unfold vals. rewrite <- (es_nth l n E). apply es_ext. exact A4.
Qed.
Hypothesis Pa : at_addr m (regs m RSI) a.
Hypothesis Sa : same_or_apart n (regs m RSI) pd.
Lemma rawCopy_agree : exists m', call lay (asm_rawCopy n) m = Some m' /\ stored [RAX] pd (rawCopy (U 0) (U 1) mm (U 0)) m m'.
Proof.
  destruct (at_ptr _ a Ha Pa) as [Qa Va]. destruct (call_of lay n m pd Hret (asm_rawCopy n) (vals m (regs m RSI) n)) as (m' & l & E & L1 & L2 & S); [apply rawCopy_ww; auto; apply (zk_n _ _ OK)|].
  exists m'. split; [exact E|]. replace (rawCopy (U 0) (U 1) mm (U 0)) with l; [exact S|]. unfold rawCopy, upd. cbn. rewrite Ea. apply (eval_inj n); [exact L1|exact Ha|lia].
Qed.
Lemma rawZero_agree : exists m', call lay (asm_rawZero n) m = Some m' /\ stored [RAX] pd (rawZero P (U 0) mm (U 0)) m m'.
Proof.
  destruct (call_of lay n m pd Hret (asm_rawZero n) 0) as (m' & l & E & L1 & L2 & S); [apply rawZero_ww; auto|].
  exists m'. split; [exact E|]. replace (rawZero P (U 0) mm (U 0)) with l; [exact S|]. unfold rawZero, upd. cbn. apply (eval_inj n); [exact L1| |].
  - split; [apply repeat_length|]. apply Forall_forall. intros x Hx. apply repeat_spec in Hx. subst x. pose proof B_pos. lia.
  - rewrite L2. clear. induction n as [|k IH]; [reflexivity|]. cbn [repeat eval]. lia.
Qed.
Hypothesis Pq : at_addr m (lay Sq) (p_q P).
Hypothesis Dq : apart n (lay Sq) pd.
Hypothesis Haq : eval a < q.
Lemma q_ptr : ptr (lay Sq) n /\ vals m (lay Sq) n = q.
Proof. destruct (at_ptr _ _ (ql_ok q P OK) Pq) as [H E]. split; [exact H|]. rewrite E. apply (ql_eval q P OK). Qed.
Lemma rawNeg_agree : exists m', call lay (asm_rawNeg n) m = Some m' /\ stored [RAX] pd (rawNeg P (U 0) (U 1) mm (U 0)) m m'.
Proof.
  destruct (at_ptr _ a Ha Pa) as [Qa Va]. destruct q_ptr as [Qq Vq]. destruct (call_of lay n m pd Hret (asm_rawNeg n) ((- vals m (regs m RSI) n) mod vals m (lay Sq) n)) as (m' & l & E & L1 & L2 & S); [apply rawNeg_ww; auto; [apply (zk_n _ _ OK)|lia]|].
  exists m'. split; [exact E|]. rewrite Va, Vq in L2. destruct (rawNeg_spec q P OK (U 0) (U 1) mm (eval a)) as [(H1 & H2 & H3) _]; [split; [rewrite Ea; exact Ha|split; [rewrite Ea; reflexivity|apply nonneg; assumption]]|].
  rewrite <- (eval_inj n l _ L1 H1); [exact S|]. rewrite L2, H2. reflexivity.
Qed.
Hypothesis Pb : at_addr m (regs m RDX) b.
Hypothesis Sb : same_or_apart n (regs m RDX) pd.
Hypothesis Hbq : eval b < q.
Lemma rawAdd_agree : exists m', call lay (asm_rawAdd n) m = Some m' /\ stored [RAX] pd (rawAdd P (U 0) (U 1) (U 2) mm (U 0)) m m'.
Proof.
  destruct (at_ptr _ a Ha Pa) as [Qa Va]. destruct (at_ptr _ b Hb Pb) as [Qb Vb]. destruct q_ptr as [Qq Vq].
  destruct (call_of lay n m pd Hret (asm_rawAdd n) ((vals m (regs m RSI) n + vals m (regs m RDX) n) mod vals m (lay Sq) n)) as (m' & l & E & L1 & L2 & S); [apply rawAdd_ww; auto; [apply (zk_n _ _ OK)|lia|lia]|].
  exists m'. split; [exact E|]. rewrite Va, Vb, Vq in L2. destruct (rawAdd_spec q P OK (U 0) (U 1) (U 2) mm (eval a) (eval b)) as [(H1 & H2 & H3) _]; [split; [rewrite Ea; exact Ha|split; [rewrite Ea; reflexivity|apply nonneg; assumption]]|split; [rewrite Eb; exact Hb|split; [rewrite Eb; reflexivity|apply nonneg; assumption]]|].
  rewrite <- (eval_inj n l _ L1 H1); [exact S|]. rewrite L2, H2. reflexivity.
Qed.
Lemma rawSub_agree : exists m', call lay (asm_rawSub n) m = Some m' /\ stored [RAX] pd (rawSub P (U 0) (U 1) (U 2) mm (U 0)) m m'.
Proof.
  destruct (at_ptr _ a Ha Pa) as [Qa Va]. destruct (at_ptr _ b Hb Pb) as [Qb Vb]. destruct q_ptr as [Qq Vq].
  destruct (call_of lay n m pd Hret (asm_rawSub n) ((vals m (regs m RSI) n - vals m (regs m RDX) n) mod vals m (lay Sq) n)) as (m' & l & E & L1 & L2 & S); [apply rawSub_ww; auto; [apply (zk_n _ _ OK)|lia|lia]|].
  exists m'. split; [exact E|]. rewrite Va, Vb, Vq in L2. destruct (rawSub_spec q P OK (U 0) (U 1) (U 2) mm (eval a) (eval b)) as [(H1 & H2 & H3) _]; [split; [rewrite Ea; exact Ha|split; [rewrite Ea; reflexivity|apply nonneg; assumption]]|split; [rewrite Eb; exact Hb|split; [rewrite Eb; reflexivity|apply nonneg; assumption]]|].
  rewrite <- (eval_inj n l _ L1 H1); [exact S|]. rewrite L2, H2. reflexivity.
Qed.
End Raw.
End F.
(** the tests; no modulus is involved *)
Section T.
Variable lay : sym -> Z.
Variable n : nat.
Variable m : mach.
Hypothesis W : words m.
Variables a b : list Z.
Hypothesis Ha : length a = n.
Hypothesis Hb : length b = n.
Lemma at_val p l : length l = n -> at_addr m p l -> ptr p n /\ es (fun j => mem m (p + 8 * Z.of_nat j)) n = eval l.
Proof. intros E (A1 & A2 & A3 & A4). rewrite E in A3, A4. split; [split; [exact A1|split; [exact A2|exact A3]]|]. rewrite <- (es_nth l n E). apply es_ext. exact A4. Qed.
Hypothesis Pa : at_addr m (regs m RDI) a.
Variable mm : rmem.
Hypothesis Ea : mm (U 1) = a.
Definition answered (v : Z) (m' : mach) : Prop := mem m' = mem m /\ regs m' RAX = v /\ (forall r, r <> RAX -> r <> RSP -> regs m' r = regs m r) /\ regs m' RSP = (regs m RSP + 8) mod B.
Lemma rawIsZero_agree : exists m', call lay (asm_rawIsZero n) m = Some m' /\ answered (rawIsZero (U 1) mm) m'.
Proof.
  destruct (at_val _ a Ha Pa) as [Qa Va]. rewrite rawIsZero_spec, Ea, <- Va. apply call_rt. apply rawIsZero_ww; auto.
Qed.
Hypothesis Pb : at_addr m (regs m RSI) b.
Hypothesis Eb : mm (U 2) = b.
Lemma rawIsEq_agree : exists m', call lay (asm_rawIsEq n) m = Some m' /\ answered (rawIsEq (U 1) (U 2) mm) m'.
Proof.
  destruct (at_val _ a Ha Pa) as [Qa Va]. destruct (at_val _ b Hb Pb) as [Qb Vb]. rewrite rawIsEq_spec, Ea, Eb, <- Va, <- Vb. apply call_rt. apply rawIsEq_ww; auto.
Qed.
End T.
