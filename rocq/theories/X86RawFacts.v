(** Proofs about the straight-line raw routines. *)
From Coq Require Import ZArith List Bool Arith Lia.
From Verif Require Import Limbs LimbsFacts X86 X86Sim X86Mont X86Call X86Raw.
Import ListNotations.
Open Scope Z_scope.

Definition st := (mach * option label)%type.
Section W.
Variable lay : sym -> Z.
Definition ww (code : list instr) (Q : st -> Prop) (s : st) : Prop := exists s', run lay code s = Some s' /\ Q s'.
Lemma ww_nil (Q : st -> Prop) s : Q s -> ww [] Q s.
Proof. intros H. exists s. split; [reflexivity|exact H]. Qed.
Lemma ww_app a b Q s : ww a (fun s => ww b Q s) s -> ww (a ++ b) Q s.
Proof. intros (s1 & E & s2 & E2 & H). exists s2. split; [rewrite run_app, E; exact E2|exact H]. Qed.
Lemma ww_mono code (Q Q' : st -> Prop) s : (forall s, Q s -> Q' s) -> ww code Q s -> ww code Q' s.
Proof. intros H (s' & E & K). exists s'. auto. Qed.
Lemma ww_cons i code Q s s' : step lay i s = Some s' -> ww code Q s' -> ww (i :: code) Q s.
Proof. intros E (s2 & E2 & H). exists s2. split; [cbn [run]; rewrite E; exact E2|exact H]. Qed.
Lemma ww_loop (Inv : nat -> st -> Prop) f k : forall o s, (forall i s, (o <= i < o + k)%nat -> Inv i s -> ww (f i) (Inv (S i)) s) -> Inv o s -> ww (flat_map f (seq o k)) (Inv (o + k)%nat) s.
Proof.
  induction k as [|k IH]; intros o s H H0; cbn [seq flat_map].
  - rewrite Nat.add_0_r. apply ww_nil, H0.
  - apply ww_app. eapply ww_mono; [|apply H; [lia|exact H0]]. intros s1 H1. replace (o + S k)%nat with (S o + k)%nat by lia. apply IH; [|exact H1]. intros i s2 Hi. apply H. lia.
Qed.
Lemma flat_map_single {A} (f : nat -> A) l : map f l = flat_map (fun i => [f i]) l.
Proof. induction l as [|x l IH]; [reflexivity|]. cbn. rewrite IH. reflexivity. Qed.
(** skipping to a label which the code does not define *)
Fixpoint nolab (l : label) (code : list instr) : bool := match code with [] => true | Lab l' :: code => negb (Nat.eqb l l') && nolab l code | _ :: code => nolab l code end.
Lemma nolab_app l a b : nolab l (a ++ b) = nolab l a && nolab l b.
Proof. induction a as [|i a IH]; [reflexivity|]. destruct i; cbn [app nolab]; rewrite IH; try reflexivity. apply andb_assoc. Qed.
Lemma nolab_flat l f k : (forall i : nat, nolab l (f i) = true) -> nolab l (flat_map f k) = true.
Proof. intros H. induction k as [|x k IH]; [reflexivity|]. cbn [flat_map]. rewrite nolab_app, H, IH. reflexivity. Qed.
Lemma ww_skip l code (Q : st -> Prop) m : nolab l code = true -> Q (m, Some l) -> ww code Q (m, Some l).
Proof.
  intros H K. exists (m, Some l). split; [|exact K]. revert H. clear K. induction code as [|i code IH]; intros H; [reflexivity|]. cbn [run]. destruct i; cbn [nolab] in H; cbn [step]; try (apply IH; exact H).
  apply andb_true_iff in H as [H1 H2]. apply negb_true_iff in H1. rewrite H1. apply IH, H2.
Qed.

(** operands *)
Definition loc (m : mach) (o : opd) (a : Z) : Prop := match o with OMem b off => addr lay m b off = a /\ a mod 8 = 0 | _ => False end.
Definition ptr (p : Z) (n : nat) : Prop := 0 <= p /\ p mod 8 = 0 /\ p + 8 * Z.of_nat n <= B.
Lemma ptr_addr p n i : ptr p n -> (i < n)%nat -> (p + Z.of_nat i * 8) mod B = p + 8 * Z.of_nat i /\ (p + 8 * Z.of_nat i) mod 8 = 0.
Proof. intros (H1 & H2 & H3) Hi. split; [rewrite Z.mod_small by lia; lia|]. replace (p + 8 * Z.of_nat i) with (p + Z.of_nat i * 8) by lia. rewrite Z.mod_add by lia. exact H2. Qed.
Lemma loc_at8 m r p n i : regs m r = p -> ptr p n -> (i < n)%nat -> loc m (at8 r i) (p + 8 * Z.of_nat i).
Proof. intros E H Hi. unfold loc, at8, addr. rewrite E. apply (ptr_addr p n i H Hi). Qed.
Lemma loc_q8 m n i : ptr (lay Sq) n -> (i < n)%nat -> loc m (q8 i) (lay Sq + 8 * Z.of_nat i).
Proof. intros H Hi. unfold loc, q8, addr. apply (ptr_addr _ n i H Hi). Qed.
Lemma rd_loc m o a : loc m o a -> rd lay m o = Some (mem m a).
Proof. destruct o as [|b off|]; cbn [loc rd]; try tauto. intros [-> ->]. reflexivity. Qed.
Lemma wr_loc m m1 o a v : loc m o a -> wr lay m m1 o v = setm m1 a v.
Proof. destruct o as [|b off|]; cbn [loc wr]; try tauto. intros [-> _]. reflexivity. Qed.
Lemma loc_mem m o a : loc m o a -> is_mem o = true /\ is_reg o = false.
Proof. destruct o; cbn; tauto. Qed.
Lemma setf_id m : setf m (fl m) = m. Proof. destruct m; reflexivity. Qed.
Lemma w_ld m x o a code Q : loc m o a -> ww code Q (setr m x (mem m a), None) -> ww (I Imov [OReg x; o] :: code) Q (m, None).
Proof.
  intros L H. eapply ww_cons; [|exact H]. cbn [step]. unfold exec. destruct (loc_mem _ _ _ L) as [E1 E2]. cbn [encodable is_reg is_mem orb andb negb rds]. rewrite (rd_loc _ _ _ L). cbn [rd sem wrs wr setr setf fl].
  destruct m; reflexivity.
Qed.
Lemma w_st m x o a code Q : loc m o a -> ww code Q (setm m a (regs m x), None) -> ww (I Imov [o; OReg x] :: code) Q (m, None).
Proof.
  intros L H. eapply ww_cons; [|exact H]. cbn [step]. unfold exec. destruct (loc_mem _ _ _ L) as [E1 E2]. cbn [encodable is_reg is_mem]. rewrite E1, E2. cbn [orb andb negb rds]. rewrite (rd_loc _ _ _ L). cbn [rd sem wrs]. rewrite (wr_loc _ _ _ _ _ L).
  destruct m; reflexivity.
Qed.
Lemma w_imm m x v code Q : ww code Q (setr m x v, None) -> ww (I Imov [OReg x; OImm v] :: code) Q (m, None).
Proof. intros H. eapply ww_cons; [|exact H]. cbn [step]. unfold exec. cbn. destruct m; reflexivity. Qed.
Lemma w_xor m x code Q : (forall f, ww code Q (setf (setr m x 0) f, None)) -> ww (I Ixor [OReg x; OReg x] :: code) Q (m, None).
Proof. intros H. eapply ww_cons; [|apply H]. cbn [step]. unfold exec. cbn. rewrite Z.lxor_nilpotent. reflexivity. Qed.
Definition cin (i : nat) (m : mach) : Z := if Nat.eqb i 0 then 0 else b2z (cf (fl m)).
Lemma w_add m x i o a code Q : loc m o a ->
  (forall f, cf f = (B <=? regs m x + mem m a + cin i m) -> ww code Q (setf (setr m x ((regs m x + mem m a + cin i m) mod B)) f, None)) -> ww (I (addOp i) [OReg x; o] :: code) Q (m, None).
Proof.
  intros L H. destruct (loc_mem _ _ _ L) as [E1 E2]. unfold addOp, cin in *. destruct (Nat.eqb i 0).
  - eapply ww_cons; [|apply H]; cycle 1; [|cbn [step]; unfold exec; cbn [encodable is_reg is_mem orb andb negb rds]; rewrite (rd_loc _ _ _ L); cbn [rd sem]; unfold addf; cbn [wrs wr]; reflexivity]. reflexivity.
  - eapply ww_cons; [|apply H]; cycle 1; [|cbn [step]; unfold exec; cbn [encodable is_reg is_mem orb andb negb rds]; rewrite (rd_loc _ _ _ L); cbn [rd sem]; unfold addf; cbn [wrs wr]; reflexivity]. reflexivity.
Qed.
Lemma w_sub m x i o a code Q : loc m o a ->
  (forall f, cf f = (regs m x - mem m a - cin i m <? 0) -> ww code Q (setf (setr m x ((regs m x - mem m a - cin i m) mod B)) f, None)) -> ww (I (subOp i) [OReg x; o] :: code) Q (m, None).
Proof.
  intros L H. destruct (loc_mem _ _ _ L) as [E1 E2]. unfold subOp, cin in *. destruct (Nat.eqb i 0).
  - eapply ww_cons; [|apply H]; cycle 1; [|cbn [step]; unfold exec; cbn [encodable is_reg is_mem orb andb negb rds]; rewrite (rd_loc _ _ _ L); cbn [rd sem]; unfold subf; cbn [wrs wr]; reflexivity]. reflexivity.
  - eapply ww_cons; [|apply H]; cycle 1; [|cbn [step]; unfold exec; cbn [encodable is_reg is_mem orb andb negb rds]; rewrite (rd_loc _ _ _ L); cbn [rd sem]; unfold subf; cbn [wrs wr]; reflexivity]. reflexivity.
Qed.
Lemma w_addm m x i o a code Q : loc m o a ->
  (forall f, cf f = (B <=? mem m a + regs m x + cin i m) -> ww code Q (setf (setm m a ((mem m a + regs m x + cin i m) mod B)) f, None)) -> ww (I (addOp i) [o; OReg x] :: code) Q (m, None).
Proof.
  intros L H. destruct (loc_mem _ _ _ L) as [E1 E2]. unfold addOp, cin in *. destruct (Nat.eqb i 0).
  - eapply ww_cons; [|apply H]; cycle 1; [|cbn [step]; unfold exec; cbn [encodable is_reg is_mem]; rewrite E1, E2; cbn [orb andb negb rds]; rewrite (rd_loc _ _ _ L); cbn [rd sem]; unfold addf; cbn [wrs]; rewrite (wr_loc _ _ _ _ _ L); reflexivity]. reflexivity.
  - eapply ww_cons; [|apply H]; cycle 1; [|cbn [step]; unfold exec; cbn [encodable is_reg is_mem]; rewrite E1, E2; cbn [orb andb negb rds]; rewrite (rd_loc _ _ _ L); cbn [rd sem]; unfold addf; cbn [wrs]; rewrite (wr_loc _ _ _ _ _ L); reflexivity]. reflexivity.
Qed.
Lemma w_subm m x i o a code Q : loc m o a ->
  (forall f, cf f = (mem m a - regs m x - cin i m <? 0) -> ww code Q (setf (setm m a ((mem m a - regs m x - cin i m) mod B)) f, None)) -> ww (I (subOp i) [o; OReg x] :: code) Q (m, None).
Proof.
  intros L H. destruct (loc_mem _ _ _ L) as [E1 E2]. unfold subOp, cin in *. destruct (Nat.eqb i 0).
  - eapply ww_cons; [|apply H]; cycle 1; [|cbn [step]; unfold exec; cbn [encodable is_reg is_mem]; rewrite E1, E2; cbn [orb andb negb rds]; rewrite (rd_loc _ _ _ L); cbn [rd sem]; unfold subf; cbn [wrs]; rewrite (wr_loc _ _ _ _ _ L); reflexivity]. reflexivity.
  - eapply ww_cons; [|apply H]; cycle 1; [|cbn [step]; unfold exec; cbn [encodable is_reg is_mem]; rewrite E1, E2; cbn [orb andb negb rds]; rewrite (rd_loc _ _ _ L); cbn [rd sem]; unfold subf; cbn [wrs]; rewrite (wr_loc _ _ _ _ _ L); reflexivity]. reflexivity.
Qed.
(** comparisons of 64-bit words *)
Lemma eq_mod u v : 0 <= u < B -> 0 <= v < B -> ((u - v - 0) mod B =? 0) = (u =? v).
Proof.
  intros Hu Hv. rewrite Z.sub_0_r. pose proof B_pos. destruct (Z.eqb_spec u v) as [->|N]; [rewrite Z.sub_diag; reflexivity|]. apply Z.eqb_neq. intros E. apply N.
  destruct (Z_lt_le_dec u v); [rewrite <- (Z.mod_add _ 1), Z.mod_small in E by lia|rewrite Z.mod_small in E by lia]; lia.
Qed.
Lemma w_cmp m x o a code Q : loc m o a -> 0 <= regs m x < B -> 0 <= mem m a < B ->
  (forall f, cf f = (regs m x <? mem m a) -> zf f = (regs m x =? mem m a) -> ww code Q (setf m f, None)) -> ww (I Icmp [OReg x; o] :: code) Q (m, None).
Proof.
  intros L H1 H2 H. eapply ww_cons; [|apply H]; cycle 1; [| |cbn [step]; unfold exec; cbn [encodable is_reg is_mem orb andb negb rds]; rewrite (rd_loc _ _ _ L); cbn [rd sem]; unfold subf; cbn [wrs]; reflexivity].
  - cbn [cf]. destruct (Z.ltb_spec (regs m x - mem m a - 0) 0), (Z.ltb_spec (regs m x) (mem m a)); try reflexivity; lia.
  - cbn [zf]. apply eq_mod; assumption.
Qed.
Lemma w_cmpm m x o a code Q : loc m o a -> 0 <= regs m x < B -> 0 <= mem m a < B ->
  (forall f, zf f = (mem m a =? regs m x) -> ww code Q (setf m f, None)) -> ww (I Icmp [o; OReg x] :: code) Q (m, None).
Proof.
  intros L H1 H2 H. destruct (loc_mem _ _ _ L) as [E1 E2]. eapply ww_cons; [|apply H]; cycle 1; [|cbn [step]; unfold exec; cbn [encodable is_reg is_mem]; rewrite E1, E2; cbn [orb andb negb rds]; rewrite (rd_loc _ _ _ L); cbn [rd sem]; unfold subf; cbn [wrs]; reflexivity].
  cbn [zf]. apply eq_mod; assumption.
Qed.
Lemma w_cmp0 m o a code Q : loc m o a -> 0 <= mem m a < B -> (forall f, zf f = (mem m a =? 0) -> ww code Q (setf m f, None)) -> ww (I Icmp [o; OImm 0] :: code) Q (m, None).
Proof.
  intros L H2 H. destruct (loc_mem _ _ _ L) as [E1 E2]. eapply ww_cons; [|apply H]; cycle 1; [|cbn [step]; unfold exec; cbn [encodable is_reg is_mem]; rewrite E1, E2; cbn [orb andb negb rds]; rewrite (rd_loc _ _ _ L); cbn [rd sem]; unfold subf; cbn [wrs]; reflexivity].
  cbn [zf]. apply eq_mod; [exact H2|]. pose proof B_pos. lia.
Qed.
Lemma w_j m c l code Q : ww code Q (m, if holds_cond c (fl m) then Some l else None) -> ww (J c l :: code) Q (m, None).
Proof. intros H. eapply ww_cons; [reflexivity|exact H]. Qed.
Lemma w_lab m l code Q : ww code Q (m, None) -> ww (Lab l :: code) Q (m, None).
Proof. intros H. eapply ww_cons; [reflexivity|exact H]. Qed.
Lemma w_lab_hit m l code Q : ww code Q (m, None) -> ww (Lab l :: code) Q (m, Some l).
Proof. intros H. eapply ww_cons; [|exact H]. cbn [step]. rewrite Nat.eqb_refl. reflexivity. Qed.
End W.
