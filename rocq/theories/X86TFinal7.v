(** The x86-64 toInt: from the proofs on the machine to the statements. *)
From Coq Require Import ZArith List Bool Arith Lia.
From Verif Require Import Limbs LimbsFacts Gen GenFacts Spec Fr FrSpec FrFacts3 X86 X86Gen X86Sim X86Call X86Routines X86RawFacts X86T X86TSpec X86TFacts X86TInv X86TConv X86TCmp X86TInt X86TIntFacts.
Import ListNotations.
Open Scope Z_scope.
(** bytes of stack below the return address: with one temporary element *)
Definition DI (n : nat) (opt : bool) : Z := stackBytes n opt + 8 * Z.of_nat (S n) + 160.
Section F.
Variable q : Z.
Variable P : zq.
Hypothesis OK : zq_ok q P.
Notation n := (p_n64 P).
Notation opt := (p_opt P).
Variable lay : sym -> Z.
Variable ra : Z.
Hypothesis Hra : 0 <= ra < B.
Variable m : mach.
Hypothesis HQ : 2 ^ 32 < q.
Hypothesis N12 : neededFor n opt <> 12%nat.
Hypothesis N7 : n <> 7%nat.
Notation D := (DI n opt).
Hypothesis Rdy : xready P lay D m.
Notation p := (regs m RDI).
Variables s t : Z.
Variable l : list Z.
Variable v : Z.
Hypothesis F : xfields n m p s t l.
Hypothesis V : denotes q n s t l v.
Hypothesis O : xoff D m p (S n).
Notation tw := (tw lay ra).
Lemma HD : stackBytes n opt + 8 * Z.of_nat (S n) + 160 <= D. Proof. unfold DI. lia. Qed.
(** the machine at the test of the tag *)
Definition mh (f : flags) : mach := setf (setr m RAX (word_of s t)) f.
Notation TY := (e_type q P s t l v V).
Lemma rdy_h f : xready P lay D (mh f).
Proof.
  destruct Rdy as [[W1 W2] A R E]. split; [|exact A|exact R|exact E]. split; [|exact W2]. intros r. unfold mh. cbn [setf setr regs]. unfold rupd. destruct (reg_eqb r RAX); [exact (word_range s t TY)|apply W1].
Qed.
Lemma head rest Q : (tlong t = true -> forall f, tw rest Q (mh f, Some 70%nat)) -> (tlong t = false -> forall f, tw ([Movsx RAX RAX; TRet] ++ rest) Q (mh f, None)) -> tw (iHead ++ rest) Q (m, None).
Proof.
  intros H1 H2. destruct (e_ptr q P OK m p s t l F) as (A1 & A2 & A3). unfold iHead. cbn [app].
  apply (t_ld lay ra m RAX RDI 0 p); [rewrite Z.add_0_r, Z.mod_small by lia; reflexivity|exact A2|]. rewrite (e_head P m p s t l F).
  apply t_btc; cbn [setr regs]; rewrite rupd_eq, word_63 by exact TY; intros f T.
  - apply (t_over lay ra 70%nat [Movsx RAX RAX; TRet] rest); [reflexivity|]. exact (H1 T f).
  - exact (H2 T f).
Qed.
Lemma fr_h f z x : Res (mh f) D z x -> snd x = Some l_ret /\ regs (fst x) RSP = regs m RSP /\ mem (fst x) (regs m RSP) = mem m (regs m RSP) /\ IRes m D z (setr (fst x) RSP ((regs m RSP + 8) mod B)).
Proof.
  intros (E1 & E2 & E3 & E4 & W & M & CS & SP). split; [exact E1|]. split; [exact E2|]. split; [exact E3|]. split; [exact E4|]. split; [exact W|]. split; [exact M|]. split; [|exact SP].
  intros r Hr. rewrite CS by exact Hr. unfold mh. cbn [setf setr regs]. apply rupd_neq. intros ->. unfold callee_saved in Hr. cbn [In] in Hr. intuition discriminate.
Qed.
Lemma skip_err fail : tnolab l_ret ([lab 73] ++ iErr fail) = true. Proof. reflexivity. Qed.
Lemma skip_neg : tnolab l_ret (iNeg n) = true.
Proof. unfold iNeg. rewrite !tnolab_app, sbbI_nolab. reflexivity. Qed.
Lemma skip_long : tnolab l_ret (iLong lay ra n opt) = true.
Proof. unfold iLong, iNorm. rewrite !tnolab_app, zeroI_nolab, skip_neg. reflexivity. Qed.
Lemma F_int fail z : - 2 ^ 31 <= z < 2 ^ 31 -> v = z mod q -> - z <= q mod B -> exists m', f_toInt lay ra n opt fail m = Some m' /\ sx32 (regs m' RAX) = z /\ xframe D 0 0 m m'.
Proof.
  intros Hz Ev L0. apply (tcall_of lay ra (asm_toInt lay ra n opt fail) m (IRes m D z)). unfold asm_toInt. apply head; intros T f.
  - change ([lab 70] ++ ?r) with (lab 70 :: r). apply t_hit. eapply tw_mono; [intros x Hx; apply (fr_h f); exact Hx|].
    apply (I_ret q P OK lay ra Hra (mh f) D HD (rdy_h f) N12 N7 p s t l v); try assumption; try reflexivity. rewrite tnolab_app, skip_neg. reflexivity.
  - pose proof F as (Hs & _). change ([Movsx RAX RAX; TRet] ++ ?r) with (Movsx RAX RAX :: TRet :: r). apply t_movsx. apply t_ret.
    + rewrite !tnolab_app, skip_long. reflexivity.
    + cbn [fst snd]. split; [reflexivity|]. split; [reflexivity|]. split; [reflexivity|].
      assert (Es : s = z). { pose proof (v_short q P m p s t l v F V T) as E. unfold is_int32 in Hs. rewrite E in Ev. pose proof (Z.div_mod s q ltac:(lia)). pose proof (Z.div_mod z q ltac:(lia)). assert (K : s - z = q * (s / q - z / q)) by lia. set (k := s / q - z / q) in *. assert (k = 0) by (clearbody k; clear - K Hs Hz HQ; nia). clearbody k. subst k. lia. }
      split; [cbn [setr regs]; rewrite rupd_neq, rupd_eq by discriminate; unfold mh; cbn [setf setr regs]; rewrite rupd_eq, sx32_word, sx32_B by exact Hs; exact Es|].
      destruct Rdy as [[W1 W2] _ _ _]. pose proof (word_range s t TY) as WR. split; [|split; [intros; reflexivity|split; [|cbn [setr regs]; apply rupd_eq]]].
      * split; [|exact W2]. intros r. unfold mh. cbn [setf setr regs]. unfold rupd. destruct (reg_eqb r RSP); [apply Z.mod_pos_bound; reflexivity|]. destruct (reg_eqb r RAX); [apply Z.mod_pos_bound; reflexivity|apply W1].
      * intros r Hr. unfold mh. cbn [setf setr regs]. unfold callee_saved in Hr. cbn [In] in Hr. rewrite !rupd_neq by (intros ->; intuition discriminate). reflexivity.
Qed.
(** *** failure *)
Hypothesis Hv : 2 ^ 31 <= v.
Hypothesis Hr : (q - v) mod B = 0 \/ 2 ^ 31 < (q - v) mod B.
Lemma long_t : tlong t = true.
Proof.
  destruct (tlong t) eqn:T; [reflexivity|exfalso]. pose proof F as ((S1 & S2) & _). pose proof (v_short q P m p s t l v F V T) as E. destruct (Z.lt_ge_cases s 0) as [N|N].
  - assert (E2 : v = q + s) by (rewrite E, <- (Z.mod_add s 1), Z.mod_small by lia; lia). rewrite E2 in Hr. replace (q - (q + s)) with (- s) in Hr by lia. rewrite Z.mod_small in Hr by (unfold B; lia). lia.
  - rewrite Z.mod_small in E by lia. lia.
Qed.
Lemma to_err : exists f c p' m', trun lay ra (iHead ++ [lab 70] ++ iLong lay ra n opt) (m, None) = Some (m', Some 73%nat) /\ (c = 24 \/ c = 24 + 8 * Z.of_nat (S n)) /\ FI (mh f) D c p' m'.
Proof.
  assert (H : tw (iHead ++ [lab 70] ++ iLong lay ra n opt) (fun x => exists f c p' m', x = (m', Some 73%nat) /\ (c = 24 \/ c = 24 + 8 * Z.of_nat (S n)) /\ FI (mh f) D c p' m') (m, None)).
  { apply head; intros T f; [|rewrite long_t in T; discriminate]. change ([lab 70] ++ ?r) with (lab 70 :: r). apply t_hit.
    eapply tw_mono; [|apply (I_err q P OK lay ra Hra (mh f) D HD (rdy_h f) N12 N7 p s t l v); try assumption; reflexivity]. intros x H. exists f. exact H. }
  destruct H as (x & E & f & c & p' & m' & -> & H). exists f, c, p', m'. split; [exact E|exact H].
Qed.
Lemma asm_eq fail : asm_toInt lay ra n opt fail = (iHead ++ [lab 70] ++ iLong lay ra n opt) ++ [lab 73] ++ iErr fail.
Proof. unfold asm_toInt. rewrite <- !app_assoc. reflexivity. Qed.
Lemma F_stop : f_toInt lay ra n opt fail_stops m = None.
Proof.
  destruct to_err as (f & c & p' & m' & E & _). unfold f_toInt, tcall. rewrite asm_eq, trun_app, E. change ([lab 73] ++ ?r) with (lab 73 :: r). cbn [trun tstep step lab Nat.eqb]. unfold iErr. cbn [app trun]. destruct (tstep lay ra (push RDI) _) as [[m1 [k|]]|] eqn:E1; [|
  |reflexivity].
  - exfalso. unfold push in E1. cbn [tstep step] in E1. destruct (_ =? 0) in E1; discriminate.
  - destruct (tstep lay ra (movi RDI 0) _) as [[m2 [k|]]|] eqn:E2; [| |reflexivity].
    + exfalso. unfold movi in E2. cbn in E2. discriminate.
    + cbn [tstep]. destruct (_ =? 0); reflexivity.
Qed.
Lemma F_fret : exists m', f_toInt lay ra n opt fail_returns m = Some m' /\ xframe D 0 0 m m'.
Proof.
  destruct to_err as (f & c & p' & m' & E & C & H).
  enough (G : exists m2, tcall lay ra (asm_toInt lay ra n opt fail_returns) m = Some m2 /\ exists z, IRes m D z m2) by (destruct G as (m2 & G1 & z & _ & G2); exists m2; split; [exact G1|exact G2]).
  apply (tcall_of lay ra). rewrite asm_eq. apply tw_app. exists (m', Some 73%nat). split; [exact E|]. change ([lab 73] ++ ?r) with (lab 73 :: r). apply t_hit.
  eapply tw_mono; [|eapply (err_ret P lay ra Hra (mh f) D HD (rdy_h f) c p' m'); [| | |exact H]].
  - intros x (z & Hx). apply (fr_h f) in Hx as (G1 & G2 & G3 & G4). split; [exact G1|]. split; [exact G2|]. split; [exact G3|]. exists z. exact G4.
  - lia.
  - pose proof (sb_pos P). unfold DI. lia.
  - destruct C as [-> | ->]; [reflexivity|]. rewrite (Z.mul_comm 8), Z.mod_add by lia. reflexivity.
Qed.
End F.
