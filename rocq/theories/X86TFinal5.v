(** The x86-64 raw shifts: from the proofs on the machine to the statements. *)
From Coq Require Import ZArith List Bool Arith Lia.
From Verif Require Import Limbs LimbsFacts Gen GenFacts Raw Spec FrSpec RawFacts X86 X86Gen X86Sim X86Call X86Routines X86Raw X86RawFacts X86RawFacts3 X86T X86TSpec X86TInv X86TConv X86TBit X86TFinal4 X86TRawShift.
Import ListNotations.
Open Scope Z_scope.
Lemma vals_eval m p l n : at_addr m p l -> limbs_ok n l -> vals m p n = eval l.
Proof. intros H1 H2. exact (proj2 (at_vals _ _ _ _ H2 H1)). Qed.
Lemma at_ptr m p l n : at_addr m p l -> limbs_ok n l -> X86RawFacts.ptr p n.
Proof. intros H1 H2. exact (proj1 (at_vals _ _ _ _ H2 H1)). Qed.
Section F.
Variable q : Z.
Variable P : zq.
Hypothesis OK : zq_ok q P.
Notation n := (p_n64 P).
Variable lay : sym -> Z.
Variable ra : Z.
Variable m : mach.
Hypothesis Hb : p_bits P < 2 ^ 31.
Hypothesis W : words m.
Notation pd := (regs m RDI).
Notation k := (regs m RDX).
Hypothesis Pd : X86RawFacts.ptr pd n.
Hypothesis R : forall j, (j < n)%nat -> regs m RSP <> pd + 8 * Z.of_nat j.
Variable a : list Z.
Hypothesis La : limbs_ok n a.
Hypothesis Aa : at_addr m (regs m RSI) a.
Hypothesis SA : same_or_apart n (regs m RSI) pd.
Lemma bl_pos : 0 < p_bits P < 2 ^ 32.
Proof. pose proof (zk_bits_range q P OK). pose proof (N1 q P OK). lia. Qed.
Lemma F_rawShr : exists m' l, f_rawShr lay ra n (p_bits P) m = Some m' /\ limbs_ok n l /\ eval l = (if k <? p_bits P then eval a / 2 ^ k else 0) /\ stored clobS pd l m m'.
Proof.
  apply (ret_call lay ra n (p_bits P) m pd (N1 q P OK) R bl_pos). rewrite <- (vals_eval m _ _ _ Aa La).
  exact (rawShr_tw lay ra n (p_bits P) m pd (regs m RSI) W (N1 q P OK) eq_refl eq_refl Pd (at_ptr _ _ _ _ Aa La) SA bl_pos (proj2 (zk_bits_range q P OK))).
Qed.
Hypothesis Aq : at_addr m (lay Sq) (p_q P).
Hypothesis Dq : apart n (lay Sq) pd.
Hypothesis Al : at_addr m (lay SlboMask) [p_lbo P].
Hypothesis Dl : forall j, (j < n)%nat -> lay SlboMask <> pd + 8 * Z.of_nat j.
Lemma F_rawShl : (k = 0 -> eval a < q) ->
  exists m' l, f_rawShl lay ra n (p_bits P) m = Some m' /\ limbs_ok n l /\ eval l = (if k <? p_bits P then (eval a * 2 ^ k mod 2 ^ p_bits P) mod q else 0) /\ stored clobS pd l m m'.
Proof.
  intros H0. apply (ret_call lay ra n (p_bits P) m pd (N1 q P OK) R bl_pos).
  pose proof (vals_eval m _ _ n Aq (q_ok q P OK)) as VQ. rewrite (q_eval q P OK) in VQ. pose proof (vals_eval m _ _ n Aa La) as VA.
  pose proof (rawShl_tw lay ra n (p_bits P) m pd (regs m RSI) W (N1 q P OK) eq_refl eq_refl Pd (at_ptr _ _ _ _ Aa La) SA bl_pos (proj2 (zk_bits_range q P OK)) (proj1 (zk_bits_range q P OK))) as T.
  destruct Al as (A1 & A2 & A3 & A4). specialize (A4 0%nat ltac:(cbn; lia)). cbn [nth] in A4. rewrite Z.mul_0_r, Z.add_0_r in A4. rewrite (zk_lbo q P OK) in A4.
  specialize (T A4 (conj A1 (conj A2 A3)) Dl (at_ptr _ _ _ _ Aq (q_ok q P OK)) Dq ltac:(rewrite VQ; apply (two_bits q P OK))).
  unfold Vl in T. rewrite VQ, VA in T. destruct (Z.eqb_spec k 0) as [E|E]; [|exact T]. rewrite E in *. pose proof bl_pos. destruct (Z.ltb_spec 0 (p_bits P)); [|lia].
  pose proof (eval_bound _ _ La). pose proof (proj2 (zk_bits q P OK)). rewrite Z.pow_0_r, Z.mul_1_r, !Z.mod_small; [exact T|lia| ]. rewrite Z.mod_small; lia.
Qed.
End F.
