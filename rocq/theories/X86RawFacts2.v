(** Proofs about the straight-line raw routines: carry chains and comparisons. *)
From Coq Require Import ZArith List Bool Arith Lia.
From Verif Require Import Limbs LimbsFacts X86 X86Sim X86Mont X86Call X86Raw X86RawFacts.
Import ListNotations.
Open Scope Z_scope.

Lemma b2z_le s : 0 <= s < 2 * B -> s mod B = s - B * b2z (B <=? s).
Proof. intros H. pose proof B_pos. destruct (Z.leb_spec B s); cbn [b2z]; [rewrite <- (Z.mod_add _ (-1)), Z.mod_small by lia|rewrite Z.mod_small by lia]; lia. Qed.
Lemma b2z_lt s : - B <= s < B -> s mod B = s + B * b2z (s <? 0).
Proof. intros H. pose proof B_pos. destruct (Z.ltb_spec s 0); cbn [b2z]; [rewrite <- (Z.mod_add _ 1), Z.mod_small by lia|rewrite Z.mod_small by lia]; lia. Qed.
Lemma b2z_range b : 0 <= b2z b <= 1. Proof. destruct b; cbn; lia. Qed.
Lemma cin_range i m : 0 <= cin i m <= 1. Proof. unfold cin. destruct (Nat.eqb i 0); [lia|apply b2z_range]. Qed.
Lemma cin_S i m : cin (S i) m = b2z (cf (fl m)). Proof. reflexivity. Qed.

Section C.
Variable lay : sym -> Z.
Variable n : nat.
Variable m : mach.
Variable pd : Z.
Hypothesis Hm : words m.
Hypothesis Epd : regs m RDI = pd.
Hypothesis Hpd : ptr pd n.
Notation dst j := (pd + 8 * Z.of_nat j).
Definition agree (m' : mach) : Prop := forall r, r <> RAX -> regs m' r = regs m r.
Definition untouched (k : nat) (m' : mach) : Prop := forall x, (forall j, (j < k)%nat -> x <> dst j) -> mem m' x = mem m x.
Definition out (m' : mach) (k : nat) : Z := es (fun j => mem m' (dst j)) k.
Lemma agree_rax m' v : agree m' -> agree (setr m' RAX v).
Proof. intros H r Hr. cbn [setr regs]. rewrite rupd_neq by exact Hr. apply H, Hr. Qed.
Lemma loc_dst m' i : agree m' -> (i < n)%nat -> loc lay m' (at8 RDI i) (dst i).
Proof. intros H Hi. apply loc_at8 with n; [rewrite H by discriminate; exact Epd|exact Hpd|exact Hi]. Qed.
Lemma dst_inj i j : dst i = dst j -> i = j. Proof. lia. Qed.
Lemma out_upd m' i v f : out (setf (setm m' (dst i) v) f) i = out m' i.
Proof. unfold out. apply es_ext. intros j Hj. cbn [setf setm mem]. apply mupd_neq. lia. Qed.
Lemma untouched_st m' i v : untouched i m' -> untouched (S i) (setm m' (dst i) v).
Proof. intros H x Hx. cbn [setm mem]. rewrite mupd_neq by (apply Hx; lia). apply H. intros j Hj. apply Hx. lia. Qed.

(** *** dst := x op y, limb after limb *)
Section Chain.
Variables o1 o2 : nat -> opd.
Variables A1 A2 : nat -> Z.
Hypothesis L1 : forall i m', (i < n)%nat -> agree m' -> loc lay m' (o1 i) (A1 i).
Hypothesis L2 : forall i m', (i < n)%nat -> agree m' -> loc lay m' (o2 i) (A2 i).
Hypothesis S1 : forall i j, (j < i < n)%nat -> A1 i <> dst j.
Hypothesis S2 : forall i j, (j < i < n)%nat -> A2 i <> dst j.
Notation X k := (es (fun j => mem m (A1 j)) k).
Notation Y k := (es (fun j => mem m (A2 j)) k).
Record Chn (sub : bool) (i : nat) (s : st) : Prop := {
  ch_sk : snd s = None; ch_agree : agree (fst s); ch_un : untouched i (fst s);
  ch_rng : forall j, (j < i)%nat -> 0 <= mem (fst s) (dst j) < B;
  ch_val : if sub then out (fst s) i - cin i (fst s) * B ^ Z.of_nat i = X i - Y i else out (fst s) i + cin i (fst s) * B ^ Z.of_nat i = X i + Y i;
  ch_rax : forall j, i = S j -> regs (fst s) RAX = mem (fst s) (dst j) }.
Lemma chain (sub : bool) : ww lay (flat_map (fun i => [I Imov [OReg RAX; o1 i]; I (if sub then subOp i else addOp i) [OReg RAX; o2 i]; I Imov [at8 RDI i; OReg RAX]]) (seq 0 n)) (Chn sub n) (m, None).
Proof.
  eapply ww_mono; [|apply (ww_loop lay (Chn sub) _ n 0)]; [auto| |].
  - intros i [m' sk] Hi [K1 K2 K3 K4 K5 K6]. cbn [fst snd] in *. subst sk.
    assert (E1 : mem m' (A1 i) = mem m (A1 i)) by (apply K3; intros j Hj; apply S1; lia).
    assert (E2 : mem m' (A2 i) = mem m (A2 i)) by (apply K3; intros j Hj; apply S2; lia).
    pose proof (proj2 Hm (A1 i)) as R1. pose proof (proj2 Hm (A2 i)) as R2. pose proof (cin_range i m') as Rc.
    eapply w_ld; [apply L1; [lia|exact K2]|]. set (m1 := setr m' RAX (mem m' (A1 i))). assert (G1 : agree m1) by apply agree_rax, K2.
    assert (Er : regs m1 RAX = mem m (A1 i)) by (unfold m1; cbn [setr regs]; rewrite rupd_eq; exact E1).
    assert (Em : mem m1 (A2 i) = mem m (A2 i)) by exact E2. assert (Ec : cin i m1 = cin i m') by reflexivity.
    destruct sub.
    + apply w_sub with (A2 i); [apply L2; [lia|exact G1]|]. intros f Hf. rewrite Er, Em, Ec in *. set (w := mem m (A1 i) - mem m (A2 i) - cin i m') in *.
      set (m2 := setf _ f). assert (G2 : agree m2) by (intros r Hr; unfold m2; cbn [setf setr regs]; rewrite rupd_neq by exact Hr; apply G1, Hr).
      assert (Ev2 : regs m2 RAX = w mod B) by (unfold m2; cbn [setf setr regs]; apply rupd_eq).
      eapply w_st; [apply loc_dst; [exact G2|lia]|]. apply ww_nil. rewrite Ev2. constructor; cbn [fst snd].
      * reflexivity.
      * exact G2.
      * apply untouched_st. exact K3.
      * intros j Hj. cbn [setm mem]. unfold mupd. destruct (Z.eqb_spec (dst j) (dst i)); [apply Z.mod_pos_bound, B_pos|]. apply K4. lia.
      * cbn [es out]. unfold out. cbn [es]. cbn [setm mem]. rewrite mupd_eq. rewrite (es_ext _ (fun j => mem m' (dst j)) i) by (intros j Hj; apply mupd_neq; lia). fold (out m' i).
        rewrite cin_S. cbn [setm fl]. change (fl m2) with f. rewrite Hf, b2z_lt by (unfold w; lia). rewrite Bpow_S. pose proof (b2z_range (w <? 0)). unfold w in *. nia.
      * intros j Ej. assert (j = i) by lia. subst j. cbn [setm regs mem]. rewrite mupd_eq. exact Ev2.
    + apply w_add with (A2 i); [apply L2; [lia|exact G1]|]. intros f Hf. rewrite Er, Em, Ec in *. set (w := mem m (A1 i) + mem m (A2 i) + cin i m') in *.
      set (m2 := setf _ f). assert (G2 : agree m2) by (intros r Hr; unfold m2; cbn [setf setr regs]; rewrite rupd_neq by exact Hr; apply G1, Hr).
      assert (Ev2 : regs m2 RAX = w mod B) by (unfold m2; cbn [setf setr regs]; apply rupd_eq).
      eapply w_st; [apply loc_dst; [exact G2|lia]|]. apply ww_nil. rewrite Ev2. constructor; cbn [fst snd].
      * reflexivity.
      * exact G2.
      * apply untouched_st. exact K3.
      * intros j Hj. cbn [setm mem]. unfold mupd. destruct (Z.eqb_spec (dst j) (dst i)); [apply Z.mod_pos_bound, B_pos|]. apply K4. lia.
      * unfold out. cbn [es]. cbn [setm mem]. rewrite mupd_eq. rewrite (es_ext _ (fun j => mem m' (dst j)) i) by (intros j Hj; apply mupd_neq; lia). fold (out m' i).
        rewrite cin_S. cbn [setm fl]. change (fl m2) with f. rewrite Hf, b2z_le by (unfold w; lia). rewrite Bpow_S. pose proof (b2z_range (B <=? w)). unfold w in *. nia.
      * intros j Ej. assert (j = i) by lia. subst j. cbn [setm regs mem]. rewrite mupd_eq. exact Ev2.
  - constructor; cbn [fst snd].
    + reflexivity.
    + intros r _. reflexivity.
    + intros x _. reflexivity.
    + intros; lia.
    + unfold out. cbn. destruct sub; reflexivity.
    + discriminate.
Qed.
End Chain.

(** *** dst := dst op q *)
Hypothesis Hq : ptr (lay Sq) n.
Hypothesis Dq : lay Sq + 8 * Z.of_nat n <= pd \/ pd + 8 * Z.of_nat n <= lay Sq.
Notation Qv := (es (fun j => mem m (lay Sq + 8 * Z.of_nat j)) n).
Record Acc (sub : bool) (m0 : mach) (i : nat) (s : st) : Prop := {
  ac_sk : snd s = None; ac_agree : agree (fst s); ac_un : untouched n (fst s);
  ac_rest : forall j, (i <= j < n)%nat -> mem (fst s) (dst j) = mem m0 (dst j);
  ac_rng : forall j, (j < n)%nat -> 0 <= mem (fst s) (dst j) < B;
  ac_val : let Q := es (fun j => mem m (lay Sq + 8 * Z.of_nat j)) i in
           if sub then out (fst s) i - cin i (fst s) * B ^ Z.of_nat i = out m0 i - Q else out (fst s) i + cin i (fst s) * B ^ Z.of_nat i = out m0 i + Q }.
Lemma acc (sub : bool) m0 : agree m0 -> untouched n m0 -> (forall j, (j < n)%nat -> 0 <= mem m0 (dst j) < B) ->
  ww lay (flat_map (fun i => [I Imov [OReg RAX; q8 i]; I (if sub then subOp i else addOp i) [at8 RDI i; OReg RAX]]) (seq 0 n)) (Acc sub m0 n) (m0, None).
Proof.
  intros G U Rg. eapply ww_mono; [|apply (ww_loop lay (Acc sub m0) _ n 0)]; [auto| |].
  - intros i [m' sk] Hi [K1 K2 K3 K4 K5 K6]. cbn [fst snd] in *. subst sk.
    assert (E1 : mem m' (lay Sq + 8 * Z.of_nat i) = mem m (lay Sq + 8 * Z.of_nat i)) by (apply K3; intros j Hj; lia).
    pose proof (proj2 Hm (lay Sq + 8 * Z.of_nat i)) as R1. pose proof (Rg i ltac:(lia)) as R2. pose proof (cin_range i m') as Rc. assert (E0 : mem m' (dst i) = mem m0 (dst i)) by (apply K4; lia).
    eapply w_ld; [apply loc_q8 with n; [exact Hq|lia]|]. rewrite E1. set (m1 := setr m' RAX _). assert (G1 : agree m1) by apply agree_rax, K2.
    assert (Er : regs m1 RAX = mem m (lay Sq + 8 * Z.of_nat i)) by (unfold m1; cbn [setr regs]; apply rupd_eq).
    assert (Em : mem m1 (dst i) = mem m0 (dst i)) by exact E0. assert (Ec : cin i m1 = cin i m') by reflexivity.
    assert (Hun : forall v f, untouched n (setf (setm m1 (dst i) v) f)) by (intros v f x Hx; cbn [setf setm mem]; rewrite mupd_neq by (apply Hx; lia); apply K3, Hx).
    assert (Hrs : forall v f j, (S i <= j < n)%nat -> mem (setf (setm m1 (dst i) v) f) (dst j) = mem m0 (dst j)) by (intros v f j Hj; cbn [setf setm mem]; rewrite mupd_neq by lia; apply K4; lia).
    assert (Hrg : forall w f j, (j < n)%nat -> 0 <= mem (setf (setm m1 (dst i) (w mod B)) f) (dst j) < B) by (intros w f j Hj; cbn [setf setm mem]; unfold mupd; destruct (Z.eqb_spec (dst j) (dst i)); [apply Z.mod_pos_bound, B_pos|apply K5, Hj]).
    destruct sub.
    + apply w_subm with (dst i); [apply loc_dst; [exact G1|lia]|]. intros f Hf. rewrite Er, Em, Ec in *. set (w := mem m0 (dst i) - _ - cin i m') in *. apply ww_nil. constructor; cbn [fst snd]; [reflexivity|exact G1|apply Hun|apply Hrs|apply Hrg|].
      cbv zeta. rewrite cin_S. cbn [setf fl]. unfold out. cbn [es]. cbn [setf setm mem]. rewrite mupd_eq. rewrite (es_ext _ (fun j => mem m' (dst j)) i) by (intros j Hj; apply mupd_neq; lia). fold (out m' i) (out m0 i).
      cbv zeta in K6. rewrite Hf, b2z_lt by (unfold w; lia). rewrite Bpow_S. pose proof (b2z_range (w <? 0)). unfold w in *. nia.
    + apply w_addm with (dst i); [apply loc_dst; [exact G1|lia]|]. intros f Hf. rewrite Er, Em, Ec in *. set (w := mem m0 (dst i) + _ + cin i m') in *. apply ww_nil. constructor; cbn [fst snd]; [reflexivity|exact G1|apply Hun|apply Hrs|apply Hrg|].
      cbv zeta. rewrite cin_S. cbn [setf fl]. unfold out. cbn [es]. cbn [setf setm mem]. rewrite mupd_eq. rewrite (es_ext _ (fun j => mem m' (dst j)) i) by (intros j Hj; apply mupd_neq; lia). fold (out m' i) (out m0 i).
      cbv zeta in K6. rewrite Hf, b2z_le by (unfold w; lia). rewrite Bpow_S. pose proof (b2z_range (B <=? w)). unfold w in *. nia.
  - constructor; cbn [fst snd]; [reflexivity|exact G|exact U|reflexivity|exact Rg|]. unfold out. cbn. destruct sub; reflexivity.
Qed.
End C.
