(** Saving registers, some of them twice, in the AArch64 multiplications: the frame takes [K] bytes. *)
From Coq Require Import ZArith List Bool Lia.
From Verif Require Import Limbs Arm ArmFacts ArmRaw ArmCmp ArmZero ArmChain ArmSave.
Import ListNotations.
Open Scope Z_scope.

Definition stkd (K : Z) (m : mach) : Prop := sp m mod 8 = 0 /\ (forall i, (1 <= i)%nat -> off i <= K -> mapd m (sp m - off i) = true).
Definition cleard (K : Z) (m : mach) (p : Z) (n : nat) : Prop := p + 8 * Z.of_nat n <= sp m - K \/ sp m <= p.
(** what may differ after a routine with result at [pd] *)
Definition outsided (K : Z) (m m' : mach) (pd : Z) (n : nat) : Prop :=
  forall x, (forall i, (i < n)%nat -> x <> pd + off i) -> ~ (sp m - K <= x < sp m) -> mem m' x = mem m x.
Lemma outd_stack K m p n i : cleard K m p n -> (i < n)%nat -> ~ (sp m - K <= p + off i < sp m).
Proof. unfold cleard, off. lia. Qed.

(** the two registers of each pair differ *)
Fixpoint prd (l : list reg) : bool := match l with r1 :: r2 :: l => negb (Nat.eqb r1 r2) && prd l | _ => true end.
Lemma popd_ok lay l : forall m s g, sp m = s - 16 * Z.of_nat (prs l) -> s mod 8 = 0 ->
  (forall i, (1 <= i <= 2 * prs l)%nat -> mapd m (s - off i) = true) -> held l s (mem m) g -> prd l = true -> ~ In 31%nat l ->
  exists m', exec lay (popRegs l) m = Some m' /\ mem m' = mem m /\ mapd m' = mapd m /\ sp m' = s /\
    (forall r, In r l -> xr m' r = g r) /\ (forall r, ~ In r l -> xr m' r = xr m r).
Proof.
  induction l as [|r|r1 r2 l IH] using pair_ind; intros m s g S Al Mp H N N31; cbn [prs] in *.
  - exists m. cbn. repeat split; auto; try lia.
  - assert (A1 : acc m (sp m) = true).
    { rewrite S. replace (s - 16 * Z.of_nat 1) with (s - off 2) by (unfold off; lia). unfold acc. rewrite Mp by lia.
      replace ((s - off 2) mod 8) with 0; [reflexivity|]. change (s - off 2) with (s + -2 * 8). now rewrite Z_mod_plus_full. }
    cbn [popRegs exec step]. rewrite A1. eexists. split; [reflexivity|]. cbn [held] in H.
    assert (r <> 31%nat) by (intros ->; apply N31; left; reflexivity).
    repeat split.
    + cbn [sp wsp]. lia.
    + intros r' [<-|[]]. rewrite xr_wsp, xr_eq by auto. rewrite <- H. f_equal. lia.
    + intros r' Hr'. rewrite xr_wsp, xr_ne; auto. intros ->. apply Hr'. left. reflexivity.
  - destruct H as (H1 & H2 & H3). cbn [prd] in N. apply andb_prop in N as [N1 N''].
    destruct (IH m (s - 16) g) as (m1 & E & M1 & Q1 & P1 & X1 & Y1).
    { lia. } { change (s - 16) with (s + -2 * 8). now rewrite Z_mod_plus_full. }
    { intros i Hi. replace (s - 16 - off i) with (s - off (i + 2)) by (unfold off; lia). apply Mp. lia. }
    { exact H3. } { exact N''. } { intros I. apply N31. right. right. exact I. }
    assert (A1 : acc m1 (sp m1) = true).
    { rewrite P1. replace (s - 16) with (s - off 2) by (unfold off; lia). unfold acc. rewrite Q1, Mp by lia.
      replace ((s - off 2) mod 8) with 0; [reflexivity|]. change (s - off 2) with (s + -2 * 8). now rewrite Z_mod_plus_full. }
    assert (A2 : acc m1 (sp m1 + 8) = true).
    { rewrite P1. replace (s - 16 + 8) with (s - off 1) by (unfold off; lia). unfold acc. rewrite Q1, Mp by lia.
      replace ((s - off 1) mod 8) with 0; [reflexivity|]. change (s - off 1) with (s + -1 * 8). now rewrite Z_mod_plus_full. }
    assert (D : r1 <> r2) by (apply Nat.eqb_neq, negb_true_iff, N1).
    assert (D1 : r1 <> 31%nat) by (intros ->; apply N31; left; reflexivity).
    assert (D2 : r2 <> 31%nat) by (intros ->; apply N31; right; left; reflexivity).
    cbn [popRegs]. rewrite (exec_app _ _ _ _ _ E). cbn [exec step]. rewrite A1, A2. apply Nat.eqb_neq in D as D'. rewrite D'. cbn [andb negb].
    eexists. split; [reflexivity|]. split; [exact M1|]. split; [exact Q1|]. split; [cbn [sp wsp]; lia|]. split.
    + intros r Hr. rewrite xr_wsp. destruct (Nat.eq_dec r r2) as [->|Nr2]; [rewrite xr_eq by auto; rewrite M1, P1; exact H2|].
      rewrite xr_ne by auto. destruct (Nat.eq_dec r r1) as [->|Nr1]; [rewrite xr_eq by auto; rewrite M1, P1; exact H1|].
      rewrite xr_ne by auto. apply X1. destruct Hr as [Q|[Q|Q]]; [congruence|congruence|exact Q].
    + intros r Hr. rewrite xr_wsp, !xr_ne; [apply Y1| |]; intros Q; apply Hr; [right; right; exact Q|left; auto|right; left; auto].
Qed.

Definition svokd (K : Z) (l : list reg) : bool := (16 * Z.of_nat (prs l) <=? K) && prd l && negb (isin 31%nat l).
Lemma framed_ok lay K l m : stkd K m -> svokd K l = true ->
  exists m1, (forall k, run lay None (pushRegs l ++ k) m = run lay None k m1) /\ (forall r, xr m1 r = xr m r) /\ mapd m1 = mapd m /\
    (forall a, ~ (sp m - K <= a < sp m) -> mem m1 a = mem m a) /\
    (forall m2, sp m2 = sp m1 -> mapd m2 = mapd m -> (forall a, sp m - K <= a < sp m -> mem m2 a = mem m1 a) ->
       (forall r, (18 <= r)%nat -> ~ In r l -> xr m2 r = xr m r) ->
       exists m3, run lay None (popRegs l ++ [Ret]) m2 = Some m3 /\ kept m m3 /\ mem m3 = mem m2 /\ (forall r, ~ In r l -> xr m3 r = xr m2 r)).
Proof.
  intros [Al Mp] Hl. unfold svokd in Hl. apply andb_prop in Hl as [Hl H31]. apply andb_prop in Hl as [Hl Hd].
  apply Z.leb_le in Hl. apply negb_true_iff, isin_false in H31.
  destruct (push_ok lay l m Al) as (m1 & E1 & X1 & F1 & Q1 & S1 & H1 & Fr1).
  { intros i Hi. apply Mp; unfold off; lia. }
  exists m1. split; [intros k; apply run_exec, E1|]. split; [exact X1|]. split; [exact Q1|].
  split; [intros a Ha; apply Fr1; lia|].
  intros m2 S2 Q2 M2 K2.
  destruct (popd_ok lay l m2 (sp m) (xr m)) as (m3 & E3 & M3 & Q3 & S3 & X3 & Y3); auto.
  { congruence. } { intros i Hi. rewrite Q2. apply Mp; unfold off; lia. }
  { apply (held_ext l (sp m) (mem m1)); [|exact H1]. intros a Ha Hb. apply M2. lia. }
  exists m3. rewrite (run_exec _ _ _ _ _ E3). split; [reflexivity|]. split.
  - split; [exact S3|]. split; [congruence|]. intros r Hr. destruct (in_dec Nat.eq_dec r l) as [I|I]; [apply X3, I|]. rewrite Y3 by auto. auto.
  - split; [exact M3|]. exact Y3.
Qed.
