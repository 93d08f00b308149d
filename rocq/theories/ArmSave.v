(** Saving and restoring registers on the stack in the AArch64 code. *)
From Coq Require Import ZArith List Bool Lia.
From Verif Require Import Limbs Arm ArmFacts ArmRaw ArmCmp ArmZero ArmChain.
Import ListNotations.
Open Scope Z_scope.

(** 96 bytes below the stack pointer are mapped: room for x19 to x29 *)
Definition stk (m : mach) : Prop := sp m mod 8 = 0 /\ (forall i, (1 <= i <= 12)%nat -> mapd m (sp m - off i) = true).
(** an area that does not meet them *)
Definition clear_of (m : mach) (p : Z) (n : nat) : Prop := p + 8 * Z.of_nat n <= sp m - 96 \/ sp m <= p.

Fixpoint prs (l : list reg) : nat := match l with [] => 0 | [_] => 1 | _ :: _ :: l => S (prs l) end.
Fixpoint held (l : list reg) (s : Z) (f : Z -> Z) (g : reg -> Z) : Prop :=
  match l with
  | [] => True
  | [r] => f (s - 16) = g r
  | r1 :: r2 :: l => f (s - 16) = g r1 /\ f (s - 16 + 8) = g r2 /\ held l (s - 16) f g
  end.
Lemma pair_ind (P : list reg -> Prop) : P [] -> (forall r, P [r]) -> (forall a b l, P l -> P (a :: b :: l)) -> forall l, P l.
Proof.
  intros H0 H1 H2. assert (G : forall l, P l /\ (forall a, P (a :: l))).
  { induction l as [|x l [IH1 IH2]]; split; auto. }
  intros l. apply G.
Qed.
Lemma held_ext l s f f' g : (forall a, a < s -> s - 16 * Z.of_nat (prs l) <= a -> f' a = f a) -> held l s f g -> held l s f' g.
Proof.
  revert l s. induction l as [|r|r1 r2 l IH] using pair_ind; intros s H; cbn [held prs]; auto.
  - intros <-. apply H; cbn [prs]; lia.
  - cbn [prs] in H. intros (A & B0 & C). split; [rewrite H by lia; exact A|]. split; [rewrite H by lia; exact B0|].
    apply IH; auto. intros a Ha Hb. apply H; lia.
Qed.
Lemma push_ok lay l : forall m, sp m mod 8 = 0 ->
  (forall i, (1 <= i <= 2 * prs l)%nat -> mapd m (sp m - off i) = true) ->
  exists m', exec lay (pushRegs l) m = Some m' /\ (forall r, xr m' r = xr m r) /\ samef m m' /\ mapd m' = mapd m /\
    sp m' = sp m - 16 * Z.of_nat (prs l) /\ held l (sp m) (mem m') (xr m) /\
    (forall a, ~ (sp m - 16 * Z.of_nat (prs l) <= a < sp m) -> mem m' a = mem m a).
Proof.
  induction l as [|r|r1 r2 l IH] using pair_ind; intros m Al Mp.
  - exists m. cbn. repeat split; auto. lia.
  - assert (A1 : acc m (sp m - 16) = true).
    { unfold acc. replace (sp m - 16) with (sp m - off 2) by reflexivity. rewrite Mp by (cbn; lia).
      replace ((sp m - off 2) mod 8) with 0; [reflexivity|]. change (sp m - off 2) with (sp m + -2 * 8). now rewrite Z_mod_plus_full. }
    cbn [pushRegs exec step]. rewrite A1. eexists. split; [reflexivity|]. cbn [prs held]. repeat split.
    + cbn [mem wsp wm]. now rewrite Z.eqb_refl.
    + intros a Ha. cbn [mem wsp wm]. destruct (Z.eqb_spec a (sp m - 16)); [|reflexivity]. lia.
  - assert (A1 : acc m (sp m - 16) = true).
    { unfold acc. replace (sp m - 16) with (sp m - off 2) by reflexivity. rewrite Mp by (cbn; lia).
      replace ((sp m - off 2) mod 8) with 0; [reflexivity|]. change (sp m - off 2) with (sp m + -2 * 8). now rewrite Z_mod_plus_full. }
    assert (A2 : acc m (sp m - 16 + 8) = true).
    { unfold acc. replace (sp m - 16 + 8) with (sp m - off 1) by (unfold off; lia). rewrite Mp by (cbn; lia).
      replace ((sp m - off 1) mod 8) with 0; [reflexivity|]. change (sp m - off 1) with (sp m + -1 * 8). now rewrite Z_mod_plus_full. }
    set (m1 := wsp (wm (wm m (sp m - 16) (xr m r1)) (sp m - 16 + 8) (xr m r2)) (sp m - 16)).
    assert (E1 : step lay (Push2 r1 r2) m = Some m1) by (cbn [step]; rewrite A1, A2; reflexivity).
    destruct (IH m1) as (m' & E & X & F & Mq & S & H & Fr).
    { cbn [sp m1 wsp]. change (sp m - 16) with (sp m + -2 * 8). now rewrite Z_mod_plus_full. }
    { intros i Hi. cbn [sp m1 wsp mapd wm]. replace (sp m - 16 - off i) with (sp m - off (i + 2)) by (unfold off; lia). apply Mp. cbn [prs]. lia. }
    cbn [sp m1 wsp] in S, H, Fr.
    exists m'. split; [cbn [pushRegs]; rewrite (exec_cons _ _ _ _ _ E1); exact E|].
    split; [intros r; rewrite X; reflexivity|]. split; [exact F|]. split; [exact Mq|]. cbn [prs].
    split; [lia|]. split.
    + cbn [held]. rewrite !Fr by lia. cbn [mem m1 wsp wm]. rewrite Z.eqb_refl.
      destruct (Z.eqb_spec (sp m - 16) (sp m - 16 + 8)); [lia|]. rewrite Z.eqb_refl. split; [reflexivity|]. split; [reflexivity|]. exact H.
    + intros a Ha. rewrite Fr by lia. cbn [mem m1 wsp wm]. destruct (Z.eqb_spec a (sp m - 16 + 8)); [lia|]. destruct (Z.eqb_spec a (sp m - 16)); [lia|reflexivity].
Qed.
Lemma pop_ok lay l : forall m s g, sp m = s - 16 * Z.of_nat (prs l) -> s mod 8 = 0 ->
  (forall i, (1 <= i <= 2 * prs l)%nat -> mapd m (s - off i) = true) -> held l s (mem m) g -> NoDup l -> ~ In 31%nat l ->
  exists m', exec lay (popRegs l) m = Some m' /\ mem m' = mem m /\ mapd m' = mapd m /\ sp m' = s /\
    (forall r, In r l -> xr m' r = g r) /\ (forall r, ~ In r l -> xr m' r = xr m r).
Proof.
  induction l as [|r|r1 r2 l IH] using pair_ind; intros m s g S Al Mp H N N31; cbn [prs] in *.
  - exists m. cbn. repeat split; auto; try lia.
  - assert (A1 : acc m (sp m) = true).
    { rewrite S. replace (s - 16 * Z.of_nat 1) with (s - off 2) by (unfold off; lia). unfold acc. rewrite Mp by lia.
      replace ((s - off 2) mod 8) with 0; [reflexivity|]. change (s - off 2) with (s + -2 * 8). now rewrite Z_mod_plus_full. }
    cbn [popRegs exec step]. rewrite A1. eexists. split; [reflexivity|]. cbn [held] in H.
    assert (r <> 31%nat) by (intros ->; apply N31; left; reflexivity).
    repeat split.
    + cbn [sp wsp]. lia.
    + intros r' [<-|[]]. rewrite xr_wsp, xr_eq by auto. rewrite <- H. f_equal. lia.
    + intros r' Hr'. rewrite xr_wsp, xr_ne; auto. intros ->. apply Hr'. left. reflexivity.
  - destruct H as (H1 & H2 & H3). inversion N as [|? ? N1 N']; subst. inversion N' as [|? ? N2 N'']; subst.
    destruct (IH m (s - 16) g) as (m1 & E & M1 & Q1 & P1 & X1 & Y1).
    { lia. } { change (s - 16) with (s + -2 * 8). now rewrite Z_mod_plus_full. }
    { intros i Hi. replace (s - 16 - off i) with (s - off (i + 2)) by (unfold off; lia). apply Mp. lia. }
    { exact H3. } { exact N''. } { intros I. apply N31. right. right. exact I. }
    assert (A1 : acc m1 (sp m1) = true).
    { rewrite P1. replace (s - 16) with (s - off 2) by (unfold off; lia). unfold acc. rewrite Q1, Mp by lia.
      replace ((s - off 2) mod 8) with 0; [reflexivity|]. change (s - off 2) with (s + -2 * 8). now rewrite Z_mod_plus_full. }
    assert (A2 : acc m1 (sp m1 + 8) = true).
    { rewrite P1. replace (s - 16 + 8) with (s - off 1) by (unfold off; lia). unfold acc. rewrite Q1, Mp by lia.
      replace ((s - off 1) mod 8) with 0; [reflexivity|]. change (s - off 1) with (s + -1 * 8). now rewrite Z_mod_plus_full. }
    assert (D : r1 <> r2) by (intros ->; apply N1; left; reflexivity).
    assert (D1 : r1 <> 31%nat) by (intros ->; apply N31; left; reflexivity).
    assert (D2 : r2 <> 31%nat) by (intros ->; apply N31; right; left; reflexivity).
    cbn [popRegs]. rewrite (exec_app _ _ _ _ _ E). cbn [exec step]. rewrite A1, A2. apply Nat.eqb_neq in D as D'. rewrite D'. cbn [andb negb].
    eexists. split; [reflexivity|]. split; [exact M1|]. split; [exact Q1|]. split; [cbn [sp wsp]; lia|]. split.
    + intros r [<-|[<-|Hr]]; rewrite xr_wsp.
      * rewrite xr_ne, xr_eq by auto. rewrite M1, P1. exact H1.
      * rewrite xr_eq by auto. rewrite M1, P1. exact H2.
      * rewrite !xr_ne; [apply X1; exact Hr| |]; intros ->; [apply N1; right; exact Hr|apply N2; exact Hr].
    + intros r Hr. rewrite xr_wsp, !xr_ne; [apply Y1| |]; intros Q; apply Hr; [right; right; exact Q|left; auto|right; left; auto].
Qed.

(** the frame of a routine that saves the registers [l] *)
Fixpoint ndb (l : list reg) : bool := match l with [] => true | a :: l => negb (isin a l) && ndb l end.
Lemma ndb_ok l : ndb l = true -> NoDup l.
Proof.
  induction l as [|a l IH]; cbn [ndb]; intros H; [constructor|]. apply andb_prop in H as [H1 H2].
  constructor; [apply isin_false, negb_true_iff, H1|auto].
Qed.
Definition svok (l : list reg) : bool := Nat.leb (prs l) 6 && ndb l && negb (isin 31%nat l).
Lemma frame_ok lay l m : stk m -> svok l = true ->
  exists m1, (forall k, run lay None (pushRegs l ++ k) m = run lay None k m1) /\ (forall r, xr m1 r = xr m r) /\ mapd m1 = mapd m /\
    (forall a, ~ (sp m - 96 <= a < sp m) -> mem m1 a = mem m a) /\
    (forall m2, sp m2 = sp m1 -> mapd m2 = mapd m -> (forall a, sp m - 96 <= a < sp m -> mem m2 a = mem m1 a) ->
       (forall r, (18 <= r)%nat -> ~ In r l -> xr m2 r = xr m r) ->
       exists m3, run lay None (popRegs l ++ [Ret]) m2 = Some m3 /\ kept m m3 /\ mem m3 = mem m2 /\ (forall r, ~ In r l -> xr m3 r = xr m2 r)).
Proof.
  intros [Al Mp] Hl. unfold svok in Hl. apply andb_prop in Hl as [Hl H31]. apply andb_prop in Hl as [Hl Hd].
  apply Nat.leb_le in Hl. apply negb_true_iff, isin_false in H31. apply ndb_ok in Hd.
  destruct (push_ok lay l m Al) as (m1 & E1 & X1 & F1 & Q1 & S1 & H1 & Fr1).
  { intros i Hi. apply Mp. lia. }
  exists m1. split; [intros k; apply run_exec, E1|]. split; [exact X1|]. split; [exact Q1|].
  split; [intros a Ha; apply Fr1; lia|].
  intros m2 S2 Q2 M2 K2.
  destruct (pop_ok lay l m2 (sp m) (xr m)) as (m3 & E3 & M3 & Q3 & S3 & X3 & Y3); auto.
  { congruence. } { intros i Hi. rewrite Q2. apply Mp. lia. }
  { apply (held_ext l (sp m) (mem m1)); [|exact H1]. intros a Ha Hb. apply M2. lia. }
  exists m3. rewrite (run_exec _ _ _ _ _ E3). split; [reflexivity|]. split.
  - split; [exact S3|]. split; [congruence|]. intros r Hr. destruct (in_dec Nat.eq_dec r l) as [I|I]; [apply X3, I|]. rewrite Y3 by auto. auto.
  - split; [exact M3|]. exact Y3.
Qed.
