(** The raw routines with a short operand: rawAddLS, rawSubLS, rawSubSL. *)
From Coq Require Import ZArith List Bool Arith Lia.
From Verif Require Import Limbs LimbsFacts X86 X86Sim X86Mont X86Call X86Raw X86RawFacts X86RawFacts2 X86RawFacts3 X86T.
Import ListNotations.
Open Scope Z_scope.

Lemma addOp_S i : (1 <= i)%nat -> addOp i = Iadc. Proof. destruct i; [lia|reflexivity]. Qed.
Lemma subOp_S i : (1 <= i)%nat -> subOp i = Isbb. Proof. destruct i; [lia|reflexivity]. Qed.
Lemma cin_1 i m : (1 <= i)%nat -> cin i m = b2z (cf (fl m)). Proof. destruct i; [lia|reflexivity]. Qed.
Section W.
Variable lay : sym -> Z.
Lemma w_subr m x y i code Q : (forall f, cf f = (regs m x - regs m y - cin i m <? 0) -> ww lay code Q (setf (setr m x ((regs m x - regs m y - cin i m) mod B)) f, None)) -> ww lay (I (subOp i) [OReg x; OReg y] :: code) Q (m, None).
Proof.
  intros H. unfold subOp, cin in *. destruct (Nat.eqb i 0); (eapply ww_cons; [|apply H]; cycle 1; [|cbn [step]; unfold exec; cbn [encodable is_reg is_mem orb andb negb rds rd sem]; unfold subf; cbn [wrs wr]; reflexivity]; reflexivity).
Qed.
Lemma w_subi m x v i code Q : (forall f, cf f = (regs m x - v - cin i m <? 0) -> ww lay code Q (setf (setr m x ((regs m x - v - cin i m) mod B)) f, None)) -> ww lay (I (subOp i) [OReg x; OImm v] :: code) Q (m, None).
Proof.
  intros H. unfold subOp, cin in *. destruct (Nat.eqb i 0); (eapply ww_cons; [|apply H]; cycle 1; [|cbn [step]; unfold exec; cbn [encodable is_reg is_mem orb andb negb rds rd sem]; unfold subf; cbn [wrs wr]; reflexivity]; reflexivity).
Qed.
Lemma w_movr m x y code Q : ww lay code Q (setr m x (regs m y), None) -> ww lay (I Imov [OReg x; OReg y] :: code) Q (m, None).
Proof. intros H. eapply ww_cons; [|exact H]. cbn [step]. unfold exec. cbn. destruct m; reflexivity. Qed.
End W.

Section G.
Variable lay : sym -> Z.
Variable n : nat.
Variable m : mach.
Variable pd : Z.
Hypothesis Hm : words m.
Hypothesis Hpd : ptr pd n.
Hypothesis Hn : (1 <= n)%nat.
Notation dst j := (pd + 8 * Z.of_nat j).
Notation out := (out pd).
Notation untouched := (untouched m pd).
Variable clob : list reg.
Definition agreeC (m' : mach) : Prop := forall r, ~ In r clob -> regs m' r = regs m r.
(** *** dst := x op y with the carry in cf *)
Variable sub : bool.
Variables x y : nat -> Z.
Hypothesis Hx : forall j, 0 <= x j < B.
Hypothesis Hy : forall j, 0 <= y j < B.
Definition sg : Z := if sub then -1 else 1.
Definition opv (a b c : Z) : Z := if sub then a - b - c else a + b + c.
Definition opc (s : Z) : bool := if sub then s <? 0 else B <=? s.
Record Gch (i : nat) (s : X86RawFacts.st) : Prop := {
  g_sk : snd s = None; g_agree : agreeC (fst s); g_un : untouched i (fst s);
  g_rng : forall j, (j < i)%nat -> 0 <= mem (fst s) (dst j) < B;
  g_val : out (fst s) i + sg * (b2z (cf (fl (fst s))) * B ^ Z.of_nat i) = es x i + sg * es y i }.
Lemma op_split a b c : 0 <= a < B -> 0 <= b < B -> 0 <= c <= 1 -> opv a b c mod B = opv a b c - sg * (B * b2z (opc (opv a b c))).
Proof.
  intros Ha Hb Hc. unfold opv, opc, sg. destruct sub; [rewrite b2z_lt by lia; lia|]. assert (a + b + c <= 2 * B - 1) by lia. rewrite b2z_le by lia. lia.
Qed.
Lemma g_first m' f : agreeC m' -> mem m' = mem m -> cf f = opc (opv (x 0%nat) (y 0%nat) 0) -> Gch 1 (setf (setm m' (dst 0) (opv (x 0%nat) (y 0%nat) 0 mod B)) f, None).
Proof.
  intros G M Hf. pose proof B_pos. constructor; cbn [fst snd]; [reflexivity|exact G| | |].
  - intros z Hz. cbn [setf setm mem]. rewrite mupd_neq by (apply Hz; lia). rewrite M. reflexivity.
  - intros j Hj. assert (j = 0%nat) by lia. subst j. cbn [setf setm mem]. rewrite mupd_eq. apply Z.mod_pos_bound. lia.
  - unfold X86RawFacts2.out. cbn [es setf setm mem fl]. rewrite mupd_eq, Hf, op_split by (try apply Hx; try apply Hy; lia). change (B ^ Z.of_nat 0) with 1. change (B ^ Z.of_nat 1) with B. unfold opv, sg. destruct sub; lia.
Qed.
Lemma g_next i m' m2 f : Gch i (m', None) -> agreeC m2 -> mem m2 = mem m' -> cf f = opc (opv (x i) (y i) (b2z (cf (fl m')))) -> Gch (S i) (setf (setm m2 (dst i) (opv (x i) (y i) (b2z (cf (fl m'))) mod B)) f, None).
Proof.
  intros [K1 K2 K3 K4 K5] G M Hf. cbn [fst snd] in *. pose proof B_pos. constructor; cbn [fst snd]; [reflexivity|exact G| | |].
  - intros z Hz. cbn [setf setm mem]. rewrite mupd_neq by (apply Hz; lia). rewrite M. apply K3. intros j Hj. apply Hz. lia.
  - intros j Hj. cbn [setf setm mem]. destruct (Nat.eq_dec j i) as [->|N]; [rewrite mupd_eq; apply Z.mod_pos_bound; lia|]. rewrite mupd_neq by lia. rewrite M. apply K4. lia.
  - unfold X86RawFacts2.out in *. cbn [es setf setm mem fl]. rewrite mupd_eq, Hf. rewrite (es_ext _ (fun j => mem m' (dst j))) by (intros j Hj; cbn beta; rewrite mupd_neq by lia; rewrite M; reflexivity).
    rewrite op_split by (try apply Hx; try apply Hy; apply b2z_range). rewrite Bpow_S. set (E := es _ i) in *. set (c := b2z (cf (fl m'))) in *. set (c' := b2z _). unfold opv, sg in *. destruct sub; lia.
Qed.
End G.

(** *** the final correction by q *)
Section Tail.
Variable lay : sym -> Z.
Variable n : nat.
Variable m : mach.
Variable pd : Z.
Hypothesis Hm : words m.
Hypothesis Epd : regs m RDI = pd.
Hypothesis Hpd : ptr pd n.
Hypothesis Hn : (1 <= n)%nat.
Hypothesis Hq : ptr (lay Sq) n.
Hypothesis Dq : apart n (lay Sq) pd.
Notation out := (out pd).
Notation q := (vals m (lay Sq) n).
Lemma refl_agree : agree m m. Proof. intros r _. reflexivity. Qed.
Lemma refl_un k : untouched m pd k m. Proof. intros x _. reflexivity. Qed.
Lemma q_range : 0 <= q < B ^ Z.of_nat n. Proof. apply vals_range; assumption. Qed.
Lemma here_range : 0 <= out m n < B ^ Z.of_nat n. Proof. apply es_bound. intros j _. apply Hm. Qed.
Lemma after_range m' : (forall j, (j < n)%nat -> 0 <= mem m' (pd + 8 * Z.of_nat j) < B) -> 0 <= out m' n < B ^ Z.of_nat n. Proof. intros H. apply es_bound. exact H. Qed.
Lemma tail_add V : out m n - b2z (cf (fl m)) * B ^ Z.of_nat n = V -> - q <= V < q -> ww lay ([J Cnc l_done] ++ asm_addq n ++ [Lab l_done]) (Final n m pd (V mod q)) (m, None).
Proof.
  intros HV HR. pose proof q_range as RQ. pose proof here_range as RO. pose proof (Bpow_pos n). apply ww_app, w_j, ww_nil. cbn [holds_cond]. destruct (cf (fl m)); cbn [b2z negb] in *.
  - apply ww_app. eapply ww_mono; [|apply (acc lay n m pd Hm Epd Hpd Hq Dq false m refl_agree (refl_un n))]; [|intros; apply Hm].
    intros [m3 sk] [A1 A2 A3 A4 A5 A6]. cbn [fst snd] in *. subst sk. apply w_lab, ww_nil. cbv zeta in A6. change (es (fun j => mem m (lay Sq + 8 * Z.of_nat j)) n) with q in A6.
    constructor; cbn [fst snd]; [reflexivity|exact A2|exact A3|exact A5|]. pose proof (after_range m3 A5) as R3. pose proof (cin_range n m3).
    assert (Eo : out m3 n = V + q). { assert (D : cin n m3 = 0 \/ cin n m3 = 1) by lia. destruct D as [D|D]; rewrite D in A6; lia. }
    destruct (Z.eq_dec (V + q) q); [lia|]. rewrite <- (Z.mod_add _ 1), Z.mod_small by lia. lia.
  - apply ww_app, ww_skip; [apply nolab_flat; reflexivity|]. apply w_lab_hit, ww_nil. constructor; cbn [fst snd]; [reflexivity|apply refl_agree|apply refl_un|intros; apply Hm|]. rewrite Z.mod_small by lia. lia.
Qed.
Lemma cmp_code : flat_map (fun i => [I Imov [OReg RAX; at8 RDI (n - i - 1)]; I Icmp [OReg RAX; q8 (n - i - 1)]; J Cc l_done; J Cnz l_sq]) (seq 0 n) =
  I Imov [OReg RAX; at8 RDI (n - 1)] :: flat_map (fun i => (if Nat.eqb i 0 then [] else [I Imov [OReg RAX; at8 RDI (n - i - 1)]]) ++ [I Icmp [OReg RAX; q8 (n - i - 1)]; J Cc l_done; J Cnz l_sq]) (seq 0 n).
Proof.
  destruct n as [|k]; [lia|]. cbn [seq flat_map Nat.eqb app]. rewrite Nat.sub_0_r. do 4 f_equal. rewrite !flat_map_concat_map. f_equal. apply map_ext_in. intros i Hi. apply in_seq in Hi. destruct (Nat.eqb_spec i 0); [lia|]. reflexivity.
Qed.
Lemma tail_sub V : out m n + b2z (cf (fl m)) * B ^ Z.of_nat n = V -> 0 <= V < 2 * q ->
  ww lay ([J Cc l_sq] ++ flat_map (fun i => [I Imov [OReg RAX; at8 RDI (n - i - 1)]; I Icmp [OReg RAX; q8 (n - i - 1)]; J Cc l_done; J Cnz l_sq]) (seq 0 n) ++ [Lab l_sq] ++ asm_subq n ++ [Lab l_done]) (Final n m pd (V mod q)) (m, None).
Proof.
  intros HV HR. pose proof q_range as RQ. pose proof here_range as R1. pose proof (Bpow_pos n).
  assert (SUB : forall m2, agree m m2 -> mem m2 = mem m -> q <= V -> ww lay (asm_subq n ++ [Lab l_done]) (Final n m pd (V mod q)) (m2, None)).
  { intros m2 G2 M2 Hge. apply ww_app. eapply ww_mono; [|apply (acc lay n m pd Hm Epd Hpd Hq Dq true m2 G2); [intros x Hx; rewrite M2; reflexivity|rewrite M2; intros; apply Hm]].
    intros [m3 sk] [A1 A2 A3 A4 A5 A6]. cbn [fst snd] in *. subst sk. apply w_lab, ww_nil. cbv zeta in A6. change (es (fun j => mem m (lay Sq + 8 * Z.of_nat j)) n) with q in A6.
    constructor; cbn [fst snd]; [reflexivity|exact A2|exact A3|exact A5|]. pose proof (after_range m3 A5) as R3. assert (E2 : out m2 n = out m n) by (unfold X86RawFacts2.out; rewrite M2; reflexivity). rewrite E2 in A6.
    pose proof (cin_range n m3). pose proof (b2z_range (cf (fl m))).
    assert (Eo : out m3 n = V - q).
    { assert (D : cin n m3 = 0 \/ cin n m3 = 1) by lia. assert (D' : b2z (cf (fl m)) = 0 \/ b2z (cf (fl m)) = 1) by lia. destruct D as [D|D], D' as [D'|D']; rewrite D in A6; rewrite D' in HV; lia. } rewrite <- (Z.mod_add _ (-1)), Z.mod_small by lia. lia. }
  apply ww_app, w_j. cbn [holds_cond]. destruct (cf (fl m)) eqn:Ecf; cbn [b2z] in HV.
  - apply ww_nil. rewrite app_assoc. apply ww_app.  eapply ww_mono; [|apply ww_app, ww_skip with (Q := fun s => ww lay [Lab l_sq] (fun s => s = (m, None)) s)].
    + intros s ->. apply SUB; [apply refl_agree|reflexivity|lia].
    + apply nolab_flat. intros i. reflexivity.
    + apply w_lab_hit, ww_nil. reflexivity.
  - apply ww_nil. rewrite cmp_code, <- app_comm_cons. eapply w_ld; [eapply loc_at8 with (n := n) (p := pd); [exact Epd|exact Hpd|lia]|]. set (m1 := setr m RAX _).
    assert (G1 : agree m m1) by (intros r Hr; unfold m1; cbn [setr regs]; apply rupd_neq, Hr).
    apply ww_app. eapply ww_mono; [|apply (cmp_loop lay n m pd Hm Epd Hpd Hn Hq Dq m1)]; [|intros x Hx; reflexivity|intros; apply Hm|exact G1|unfold m1; cbn [setr regs mem]; apply rupd_eq].
    intros [m2 sk] [C1 C2 C3 C4]. cbn [fst snd] in *. change (mem m1) with (mem m) in C2. change (X86RawFacts2.out pd m1 n) with (out m n) in C4. change (mem m1) with (mem m) in C4. destruct C4 as [[-> Ce]|[[-> Cl]|[-> Cg]]].
    + apply w_lab. apply SUB; [exact C1|exact C2|]. assert (out m n = q) by (apply es_ext; intros j Hj; apply Ce; lia). lia.
    + cbn [app]. change (Lab l_sq :: asm_subq n ++ [Lab l_done]) with ((Lab l_sq :: asm_subq n) ++ [Lab l_done]). apply ww_app, ww_skip; [cbn [nolab]; rewrite asm_subq_nolab; reflexivity|]. apply w_lab_hit, ww_nil.
      assert (E2 : out m2 n = out m n) by (unfold X86RawFacts2.out; rewrite C2; reflexivity).
      constructor; cbn [fst snd]; [reflexivity|exact C1|intros x Hx; rewrite C2; reflexivity|rewrite C2; intros; apply Hm|]. rewrite Z.mod_small by lia. lia.
    + cbn [app]. apply w_lab_hit. apply SUB; [exact C1|exact C2|lia].
Qed.
End Tail.
