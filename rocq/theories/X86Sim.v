(** The code emitted by the builder simulates its commands on virtual registers. *)
From Coq Require Import ZArith List Bool Arith Lia.
From Verif Require Import Limbs LimbsFacts X86 X86Gen.
Import ListNotations.
Open Scope Z_scope.

Lemma reg_eqb_spec a b : reflect (a = b) (reg_eqb a b).
Proof. destruct a, b; cbn; constructor; congruence. Qed.
Lemma reg_eqb_refl a : reg_eqb a a = true. Proof. destruct a; reflexivity. Qed.
Definition vupd (v : nat -> Z) i x : nat -> Z := fun j => if Nat.eqb j i then x else v j.

Section Sim.
Variable lay : sym -> Z.
Variable nd : nat.          (* virtual registers *)
Variable F : Z.             (* rsp *)
Variable okaddr : Z -> bool.
Hypothesis Hnd : (6 <= nd)%nat.
Definition spill : bool := (11 <? nd)%nat.
Definition nu : nat := if spill then 10%nat else nd.
Definition frame (x : Z) : Prop := F <= x < F + 8 * Z.of_nat (nd - nu).

(** ** the virtual machine *)
Definition vrd (v : nat -> Z) (m : mach) (x : arg) : option Z :=
  match x with
  | AV i => Some (v i)
  | AR r => Some (regs m r)
  | AM b off => let a := addr lay m b off in if (a mod 8 =? 0) && okaddr a then Some (mem m a) else None
  end.
Fixpoint vrds v m (l : list arg) : option (list Z) :=
  match l with [] => Some [] | o :: l => match vrd v m o, vrds v m l with Some x, Some r => Some (x :: r) | _, _ => None end end.
Definition vwr (m0 : mach) (s : (nat -> Z) * mach) (x : arg) (y : Z) : (nat -> Z) * mach :=
  match x with AV i => (vupd (fst s) i y, snd s) | AR r => (fst s, setr (snd s) r y) | AM b off => (fst s, setm (snd s) (addr lay m0 b off) y) end.
Fixpoint vwrs (m0 : mach) (s : (nat -> Z) * mach) (l : list arg) (vs : list (option Z)) : (nat -> Z) * mach :=
  match l, vs with
  | x :: l, y :: vs => let s := vwrs m0 s l vs in match y with Some y => vwr m0 s x y | None => s end
  | _, _ => s
  end.
Definition vexec (i : iname) (args : list arg) (v : nat -> Z) (m : mach) : option ((nat -> Z) * mach) :=
  match vrds v m args with
  | None => None
  | Some l => match sem i (regs m RDX) l (fl m) with None => None | Some (vs, f) => let '(v, m) := vwrs m (v, m) args vs in Some (v, setf m f) end
  end.
Definition vstep (c : cmd) (s : (nat -> Z) * mach * option label) : option ((nat -> Z) * mach * option label) :=
  let '(v, m, sk) := s in
  match sk with
  | Some l => match c with Label l' => Some (v, m, if Nat.eqb l l' then None else sk) | _ => Some s end
  | None => match c with
            | Op i args => match vexec i args v m with Some (v, m) => Some (v, m, None) | None => None end
            | Jump c l => Some (v, m, if holds_cond c (fl m) then Some l else None)
            | _ => Some s
            end
  end.
Fixpoint vrun (cs : list cmd) s : option ((nat -> Z) * mach * option label) :=
  match cs with [] => Some s | c :: cs => match vstep c s with Some s => vrun cs s | None => None end end.
Lemma vrun_app a b s : vrun (a ++ b) s = match vrun a s with Some s => vrun b s | None => None end.
Proof. revert s. induction a as [|c a IH]; intros s; cbn; [destruct s; reflexivity|]. destruct (vstep c s); [apply IH|reflexivity]. Qed.

(** ** allocation states *)
Definition cur := option (nat * bool).
Definition alloc_of (k : cur) : alloc :=
  if spill then {| needed := nd; nUsed := 10; avail := match k with None => [RBX] | Some _ => [] end;
                   assign := match k with None => [] | Some (i, b) => [{| w_reg := RBX; w_ref := i; w_mod := b |}] end |}
  else {| needed := nd; nUsed := nd; avail := []; assign := [] |}.
Lemma alloc_new : newBuilder nd = alloc_of None.
Proof. unfold newBuilder, alloc_of, spill. cbn [length availableRegs pushableRegs Nat.add]. destruct (11 <? nd)%nat; reflexivity. Qed.
Definition pr (i : nat) : reg := nth i (availableRegs ++ pushableRegs) RAX.
Definition named (r : reg) : Prop := r = RCX \/ r = RDX \/ r = RDI \/ r = RSI.
Definition fr (i : nat) : Z := F + Z.of_nat (i - nu) * 8.
Definition dir (i : nat) : opd := if (i <? nu)%nat then OReg (pr i) else OMem (BReg RSP) (Z.of_nat (i - nu) * 8).
Lemma nu_le : (nu <= 11)%nat.
Proof. unfold nu, spill. destruct (Nat.ltb_spec 11 nd); lia. Qed.
Lemma nUsed_alloc k : nUsed (alloc_of k) = nu.
Proof. unfold alloc_of, nu. destruct spill; reflexivity. Qed.
Lemma nu_ge : (6 <= nu)%nat.
Proof. unfold nu, spill. destruct (Nat.ltb_spec 11 nd); lia. Qed.
Lemma nu_nd : (nu <= nd)%nat.
Proof. unfold nu, spill. destruct (Nat.ltb_spec 11 nd); lia. Qed.
Lemma regRef_dir k i : regRef (alloc_of k) i = dir i.
Proof.
  unfold regRef, dir. rewrite nUsed_alloc. cbn [length availableRegs]. pose proof nu_le as L. pose proof nu_ge as L'.
  destruct (Nat.ltb_spec i 5) as [H|H].
  - replace (i <? nu)%nat with true by (symmetry; apply Nat.ltb_lt; lia). unfold pr. do 5 (destruct i as [|i]; [reflexivity|]). lia.
  - destruct (Nat.ltb_spec i nu) as [H'|H']; [|reflexivity]. unfold pr. rewrite app_nth2 by (cbn; lia). reflexivity.
Qed.
Lemma pr_inj i j : (i < 11)%nat -> (j < 11)%nat -> pr i = pr j -> i = j.
Proof.
  intros Hi Hj. do 11 (destruct i as [|i]; [do 11 (destruct j as [|j]; [(reflexivity || discriminate)|]); lia|]). lia.
Qed.
Lemma pr_named i r : (i < 11)%nat -> named r -> pr i <> r.
Proof. intros Hi [->|[->|[->| ->]]]; do 11 (destruct i as [|i]; [discriminate|]); lia. Qed.
Lemma pr_rsp i : (i < 11)%nat -> pr i <> RSP.
Proof. intros Hi. do 11 (destruct i as [|i]; [discriminate|]); lia. Qed.
Lemma pr_rbx i : (i < 10)%nat -> pr i <> RBX.
Proof. intros Hi. do 10 (destruct i as [|i]; [discriminate|]); lia. Qed.
Lemma named_rsp r : named r -> r <> RSP. Proof. intros [->|[->|[->| ->]]]; discriminate. Qed.
Lemma named_rbx r : named r -> r <> RBX. Proof. intros [->|[->|[->| ->]]]; discriminate. Qed.

Hypothesis HF : F mod 8 = 0.
Hypothesis HF0 : 0 <= F.
Hypothesis HFB : F + 8 * Z.of_nat (nd - nu) <= B.
Hypothesis Hok : forall x, okaddr x = true -> ~ frame x.

Record Rel (k : cur) (v : nat -> Z) (m c : mach) : Prop := {
  r_named : forall r, named r -> regs c r = regs m r;
  r_fl : fl c = fl m;
  r_rsp : regs c RSP = F;
  r_reg : forall i, (i < nu)%nat -> regs c (pr i) = v i;
  r_cur : match k with Some (i, b) => spill = true /\ (nu <= i < nd)%nat /\ regs c RBX = v i | None => True end;
  r_mem : forall i, (nu <= i < nd)%nat -> k <> Some (i, true) -> mem c (fr i) = v i;
  r_out : forall x, ~ frame x -> mem c x = mem m x }.
Lemma Rel_ext k v v' m c : (forall i, v i = v' i) -> Rel k v m c -> Rel k v' m c.
Proof.
  intros E [A1 A2 A3 A4 A5 A6 A7]. constructor; try assumption.
  - intros i H. rewrite <- E. auto.
  - destruct k as [[i b]|]; [|exact Logic.I]. rewrite <- E. exact A5.
  - intros i H H'. rewrite <- E. auto.
Qed.
Lemma nu_spill i : (nu <= i < nd)%nat -> spill = true /\ nu = 10%nat.
Proof. unfold nu. destruct spill; intros H; [auto|lia]. Qed.
Lemma fr_range i : (nu <= i < nd)%nat -> F <= fr i < F + 8 * Z.of_nat (nd - nu) /\ fr i mod 8 = 0 /\ 0 <= fr i < B.
Proof. intros H. unfold fr. split; [lia|]. split; [rewrite Z.add_mod, Z.mod_mul, HF by lia; reflexivity|lia]. Qed.
Lemma fr_inj i j : (nu <= i)%nat -> (nu <= j)%nat -> fr i = fr j -> i = j.
Proof. unfold fr. lia. Qed.

(** operands that represent arguments *)
Inductive rep (k : cur) : arg -> opd -> Prop :=
| rep_AR r : named r -> rep k (AR r) (OReg r)
| rep_AMr r off : named r -> rep k (AM (BReg r) off) (OMem (BReg r) off)
| rep_AMs s off : rep k (AM (BSym s) off) (OMem (BSym s) off)
| rep_reg i : (i < nu)%nat -> rep k (AV i) (OReg (pr i))
| rep_wr i b : k = Some (i, b) -> rep k (AV i) (OReg RBX)
| rep_frame i : (nu <= i < nd)%nat -> (forall b, k <> Some (i, b)) -> rep k (AV i) (OMem (BReg RSP) (Z.of_nat (i - nu) * 8)).
Lemma addr_am k v m c b off : Rel k v m c -> match b with BReg r => named r | _ => True end -> addr lay c b off = addr lay m b off.
Proof. intros R H. unfold addr. destruct b; [|reflexivity]. rewrite (r_named _ _ _ _ R) by exact H. reflexivity. Qed.
Lemma addr_fr k v m c i : Rel k v m c -> (nu <= i < nd)%nat -> addr lay c (BReg RSP) (Z.of_nat (i - nu) * 8) = fr i.
Proof. intros R H. unfold addr. rewrite (r_rsp _ _ _ _ R). fold (fr i). apply Z.mod_small. apply fr_range, H. Qed.
Lemma rd_rep k v m c x o y : Rel k v m c -> rep k x o -> vrd v m x = Some y -> rd lay c o = Some y.
Proof.
  intros R H. destruct H as [r H|r off H|s off|i H|i b H|i H H']; cbn [vrd rd].
  - rewrite (r_named _ _ _ _ R) by exact H. auto.
  - rewrite (addr_am k v m c (BReg r) off R H). destruct (_ mod 8 =? 0); [|discriminate]. cbn [andb]. destruct (okaddr _) eqn:O; [|discriminate].
    rewrite (r_out _ _ _ _ R) by (apply Hok, O). auto.
  - rewrite (addr_am k v m c (BSym s) off R Logic.I). destruct (_ mod 8 =? 0); [|discriminate]. cbn [andb]. destruct (okaddr _) eqn:O; [|discriminate].
    rewrite (r_out _ _ _ _ R) by (apply Hok, O). auto.
  - rewrite (r_reg _ _ _ _ R) by exact H. auto.
  - pose proof (r_cur _ _ _ _ R) as C. rewrite H in C. destruct C as (_ & _ & ->). auto.
  - rewrite (addr_fr k v m c i R H). destruct (fr_range i H) as (_ & -> & _). cbn. rewrite (r_mem _ _ _ _ R i H (H' true)). auto.
Qed.
Lemma rds_rep k v m c xs : forall os ys, Rel k v m c -> Forall2 (rep k) xs os -> vrds v m xs = Some ys -> rds lay c os = Some ys.
Proof.
  induction xs as [|x xs IH]; intros os ys R H E; inversion H; subst; cbn in *; [exact E|].
  destruct (vrd v m x) eqn:E1; [|discriminate]. destruct (vrds v m xs) eqn:E2; [|discriminate].
  match goal with H : rep k x ?y |- _ => rewrite (rd_rep k v m c x y _ R H E1) end.
  match goal with H : Forall2 (rep k) xs ?l' |- _ => rewrite (IH l' _ R H eq_refl) end. exact E.
Qed.
Lemma rupd_eq {A} (f : reg -> A) r x : rupd f r x r = x. Proof. unfold rupd. rewrite reg_eqb_refl. reflexivity. Qed.
Lemma rupd_neq {A} (f : reg -> A) r s x : s <> r -> rupd f r x s = f s.
Proof. intros H. unfold rupd. destruct (reg_eqb_spec s r); congruence. Qed.
Lemma mupd_eq f a x : mupd f a x a = x. Proof. unfold mupd. rewrite Z.eqb_refl. reflexivity. Qed.
Lemma mupd_neq f a b x : b <> a -> mupd f a x b = f b.
Proof. intros H. unfold mupd. destruct (Z.eqb_spec b a); congruence. Qed.
Lemma vupd_eq v i x : vupd v i x i = x. Proof. unfold vupd. rewrite Nat.eqb_refl. reflexivity. Qed.
Lemma vupd_neq v i j x : j <> i -> vupd v i x j = v j.
Proof. intros H. unfold vupd. destruct (Nat.eqb_spec j i); congruence. Qed.

Definition amok (m : mach) (x : arg) : Prop := match x with AM b off => okaddr (addr lay m b off) = true | _ => True end.
Lemma wr_rep k v0 m0 c0 v m c x o y : Rel k v0 m0 c0 -> Rel k v m c -> rep k x o -> amok m0 x -> (forall i, x = AV i -> k <> Some (i, false)) ->
  Rel k (fst (vwr m0 (v, m) x y)) (snd (vwr m0 (v, m) x y)) (wr lay c0 c o y).
Proof.
  intros R0 R H A N. pose proof nu_le as NL. destruct H as [r H|r off H|s off|i H|i b H|i H H']; cbn [vwr wr fst snd]; destruct R as [A1 A2 A3 A4 A5 A6 A7].
  - constructor; cbn [setr regs fl mem]; try assumption.
    + intros r' H'. unfold rupd. destruct (reg_eqb r' r); auto.
    + rewrite rupd_neq; [assumption|]. intros E. exact (named_rsp r H (eq_sym E)).
    + intros i Hi. rewrite rupd_neq; [auto|]. apply pr_named; [lia|exact H].
    + destruct k as [[i b]|]; [|exact Logic.I]. rewrite rupd_neq; [assumption|]. intros E. exact (named_rbx r H (eq_sym E)).
  - rewrite (addr_am k v0 m0 c0 (BReg r) off R0 H). cbn [amok] in A. apply Hok in A. constructor; cbn [setm regs fl mem]; try assumption.
    + intros i Hi Hk. rewrite mupd_neq; [auto|]. intros E. apply A. rewrite <- E. apply fr_range, Hi.
    + intros x Hx. unfold mupd. destruct (x =? _); auto.
  - rewrite (addr_am k v0 m0 c0 (BSym s) off R0 Logic.I). cbn [amok] in A. apply Hok in A. constructor; cbn [setm regs fl mem]; try assumption.
    + intros i Hi Hk. rewrite mupd_neq; [auto|]. intros E. apply A. rewrite <- E. apply fr_range, Hi.
    + intros x Hx. unfold mupd. destruct (x =? _); auto.
  - constructor; cbn [setr regs fl mem]; try assumption.
    + intros r' H'. rewrite rupd_neq; [auto|]. intros E. exact (pr_named i r' ltac:(lia) H' (eq_sym E)).
    + rewrite rupd_neq; [assumption|]. intros E. exact (pr_rsp i ltac:(lia) (eq_sym E)).
    + intros j Hj. destruct (Nat.eq_dec j i) as [->|D]; [rewrite rupd_eq, vupd_eq; reflexivity|]. rewrite rupd_neq, vupd_neq; auto. intros E. apply D, pr_inj; [lia|lia|exact E].
    + destruct k as [[j b]|]; [|exact Logic.I]. destruct A5 as (S1 & S2 & S3). split; [exact S1|]. split; [exact S2|].
      rewrite vupd_neq by lia. rewrite rupd_neq; [exact S3|]. intros E. destruct (nu_spill j S2) as [_ E10]. exact (pr_rbx i ltac:(lia) (eq_sym E)).
    + intros j Hj Hk. rewrite vupd_neq by lia. auto.
  - subst k. assert (b = true) as -> by (destruct b; [reflexivity|destruct (N i eq_refl eq_refl)]). destruct A5 as (S1 & S2 & S3). destruct (nu_spill i S2) as [_ E10].
    constructor; cbn [setr regs fl mem]; try assumption.
    + intros r' H'. rewrite rupd_neq; [auto|]. apply named_rbx, H'.
    + intros j Hj. rewrite vupd_neq by lia. rewrite rupd_neq; [auto|]. apply pr_rbx. lia.
    + split; [exact S1|]. split; [exact S2|]. rewrite rupd_eq, vupd_eq. reflexivity.
    + intros j Hj Hk. rewrite vupd_neq; [auto|congruence].
  - rewrite (addr_fr k v0 m0 c0 i R0 H). constructor; cbn [setm regs fl mem]; try assumption.
    + intros j Hj. rewrite vupd_neq by lia. auto.
    + destruct k as [[j b]|]; [|exact Logic.I]. destruct A5 as (S1 & S2 & S3). split; [exact S1|]. split; [exact S2|]. rewrite vupd_neq; [exact S3|]. intros ->. exact (H' b eq_refl).
    + intros j Hj Hk. destruct (Nat.eq_dec j i) as [->|D]; [rewrite mupd_eq, vupd_eq; reflexivity|]. rewrite mupd_neq, vupd_neq; auto. intros E. apply D, fr_inj; [lia|lia|exact E].
    + intros x Hx. rewrite mupd_neq; [auto|]. intros ->. apply Hx, fr_range, H.
Qed.
Lemma vrd_amok v m x y : vrd v m x = Some y -> amok m x.
Proof. destruct x; cbn; auto. destruct (_ mod 8 =? 0); [|discriminate]. cbn. destruct (okaddr _); [reflexivity|discriminate]. Qed.
Lemma wrs_rep k v0 m0 c0 xs : forall os vs v m c ys, Rel k v0 m0 c0 -> Rel k v m c -> Forall2 (rep k) xs os -> vrds v0 m0 xs = Some ys ->
  (forall j i y, nth_error xs j = Some (AV i) -> nth_error vs j = Some (Some y) -> k <> Some (i, false)) ->
  Rel k (fst (vwrs m0 (v, m) xs vs)) (snd (vwrs m0 (v, m) xs vs)) (wrs lay c0 c os vs).
Proof.
  induction xs as [|x xs IH]; intros os vs v m c ys R0 R H E N; inversion H; subst; [destruct vs; exact R|].
  destruct vs as [|y' vs]; [exact R|]. cbn [vwrs wrs]. cbn [vrds] in E. destruct (vrd v0 m0 x) eqn:E1; [|discriminate]. destruct (vrds v0 m0 xs) eqn:E2; [|discriminate].
  assert (R1 := IH l' vs v m c l R0 R ltac:(assumption) eq_refl (fun j i yy A B => N (S j) i yy A B)).
  destruct y' as [y'|]; [|exact R1]. destruct (vwrs m0 (v, m) xs vs) as [v1 m1]. cbn [fst snd] in R1.
  eapply wr_rep; [exact R0|exact R1|assumption|eapply vrd_amok; eassumption|]. intros i ->. exact (N 0%nat i y' eq_refl eq_refl).
Qed.
Definition wfk (k : cur) : Prop := match k with Some (i, _) => spill = true /\ (nu <= i < nd)%nat | None => True end.
Lemma Rel_wfk k v m c : Rel k v m c -> wfk k.
Proof. intros R. pose proof (r_cur _ _ _ _ R) as H. destruct k as [[i b]|]; [|exact Logic.I]. split; apply H. Qed.
Definition outs_ok (k : cur) (i : iname) (args : list arg) : Prop := wfk k ->
  forall rdx l f vs f', sem i rdx l f = Some (vs, f') -> forall j n y, nth_error args j = Some (AV n) -> nth_error vs j = Some (Some y) -> k <> Some (n, false).
Lemma core k i args os v m c v' m' : Rel k v m c -> Forall2 (rep k) args os -> encodable i os = true -> outs_ok k i args ->
  vexec i args v m = Some (v', m') -> exists c', exec lay i os c = Some c' /\ Rel k v' m' c'.
Proof.
  intros R H En O E. unfold vexec in E. destruct (vrds v m args) as [l|] eqn:E1; [|discriminate]. unfold exec. rewrite En. cbn [negb]. rewrite (rds_rep k v m c args os l R H E1).
  rewrite (r_named _ _ _ _ R RDX) by (unfold named; auto). rewrite (r_fl _ _ _ _ R).
  destruct (sem i (regs m RDX) l (fl m)) as [[vs f]|] eqn:E2; [|discriminate].
  pose proof (wrs_rep k v m c args os vs v m c l R R H E1 (O (Rel_wfk _ _ _ _ R) _ _ _ _ _ E2)) as R1. destruct (vwrs m (v, m) args vs) as [v1 m1]. injection E as <- <-. cbn [fst snd] in R1.
  eexists. split; [reflexivity|]. destruct R1 as [A1 A2 A3 A4 A5 A6 A7]. constructor; cbn [setf regs fl mem]; try assumption. reflexivity.
Qed.

(** ** the write register *)
Definition onlyI (code : list instr) : Prop := Forall (fun x => match x with I _ _ => True | _ => False end) code.
Lemma run_app a b s : run lay (a ++ b) s = match run lay a s with Some s => run lay b s | None => None end.
Proof. revert s. induction a as [|c a IH]; intros s; cbn; [destruct s; reflexivity|]. destruct (step lay c s); [apply IH|reflexivity]. Qed.
Lemma run_skip code c l : onlyI code -> run lay code (c, Some l) = Some (c, Some l).
Proof. induction 1 as [|x code H _ IH]; [reflexivity|]. destruct x; try destruct H. cbn. exact IH. Qed.
Lemma run1 i os c : run lay [I i os] (c, None) = match exec lay i os c with Some c => Some (c, None) | None => None end.
Proof. cbn. destruct (exec lay i os c); reflexivity. Qed.
Lemma Rel_mark i b v m c : Rel (Some (i, b)) v m c -> Rel (Some (i, true)) v m c.
Proof.
  intros [A1 A2 A3 A4 A5 A6 A7]. constructor; try assumption. intros j Hj Hk. apply A6; [exact Hj|].
  intros E. injection E as <- ->. exact (Hk eq_refl).
Qed.
Lemma Rel_drop i v m c : Rel (Some (i, false)) v m c -> Rel None v m c.
Proof. intros [A1 A2 A3 A4 A5 A6 A7]. constructor; try assumption; [exact Logic.I|]. intros j Hj Hk. apply A6; [exact Hj|discriminate]. Qed.
Lemma dir_spilled i : (nu <= i)%nat -> dir i = OMem (BReg RSP) (Z.of_nat (i - nu) * 8).
Proof. intros H. unfold dir. destruct (Nat.ltb_spec i nu); [lia|reflexivity]. Qed.
Lemma store_ok k i b v m c : (exists b', k = Some (i, b')) -> Rel k v m c ->
  exists c', run lay [store (alloc_of k) {| w_reg := RBX; w_ref := i; w_mod := b |}] (c, None) = Some (c', None) /\ Rel (Some (i, false)) v m c'.
Proof.
  intros [b' ->] R. pose proof (r_cur _ _ _ _ R) as (S1 & S2 & S3). unfold store. cbn [w_ref w_reg]. rewrite regRef_dir, dir_spilled by lia. rewrite run1. unfold exec. cbn [encodable is_reg is_mem orb andb negb rds rd].
  rewrite (addr_fr _ v m c i R S2). destruct (fr_range i S2) as (E1 & E2 & _). rewrite E2. cbn [Z.eqb sem wrs wr]. rewrite (addr_fr _ v m c i R S2).
  eexists. split; [reflexivity|]. destruct R as [A1 A2 A3 A4 A5 A6 A7]. constructor; cbn [setf setm regs fl mem]; try assumption.
  - intros j Hj _. destruct (Nat.eq_dec j i) as [->|D]; [rewrite mupd_eq; exact S3|]. rewrite mupd_neq; [|intros E; apply D, fr_inj; [lia|lia|exact E]]. apply A6; [exact Hj|congruence].
  - intros x Hx. rewrite mupd_neq; [auto|]. intros ->. exact (Hx E1).
Qed.
Lemma take_other i j b : i <> j -> take_ref [{| w_reg := RBX; w_ref := i; w_mod := b |}] j = None.
Proof. intros H. cbn. destruct (Nat.eqb_spec i j); [congruence|reflexivity]. Qed.
(** make room: afterwards the register is free *)
Definition spillcode (k : cur) : list instr := match k with Some (j, true) => [store (alloc_of k) {| w_reg := RBX; w_ref := j; w_mod := true |}] | _ => [] end.
Lemma spillcode_onlyI k : onlyI (spillcode k).
Proof. destruct k as [[j []]|]; cbn; repeat constructor. Qed.
Lemma spillcode_ok k v m c : Rel k v m c -> exists c', run lay (spillcode k) (c, None) = Some (c', None) /\ Rel None v m c'.
Proof.
  intros R. destruct k as [[j [|]]|]; cbn [spillcode].
  - destruct (store_ok _ j true v m c (ex_intro _ true eq_refl) R) as (c' & E & R'). exists c'. split; [exact E|]. eapply Rel_drop, R'.
  - exists c. split; [reflexivity|]. eapply Rel_drop, R.
  - exists c. split; [reflexivity|exact R].
Qed.
Definition isref (k : cur) (i : nat) : bool := match k with Some (j, _) => Nat.eqb j i | None => false end.
Definition loadcode (k : cur) (i : nat) (lv : bool) : list instr :=
  if isref k i then [] else spillcode k ++ (if lv then [I Imov [OReg RBX; dir i]] else []).
Definition loaded (k : cur) (i : nat) : cur := Some (i, match k with Some (j, b) => if Nat.eqb j i then b else false | None => false end).
Lemma alloc_spill k : spill = true -> alloc_of k = {| needed := nd; nUsed := 10; avail := match k with None => [RBX] | Some _ => [] end;
                   assign := match k with None => [] | Some (i, b) => [{| w_reg := RBX; w_ref := i; w_mod := b |}] end |}.
Proof. unfold alloc_of. intros ->. reflexivity. Qed.
Lemma loadWr_of k i lv : spill = true -> loadWr (alloc_of k) i lv = Some (alloc_of (loaded k i), loadcode k i lv, RBX).
Proof.
  intros S. unfold loadWr. rewrite regRef_dir. unfold loadcode, loaded, isref, spillcode. rewrite !(alloc_spill _ S). cbn [avail assign].
  destruct k as [[j b]|]; cbn [take_ref w_ref].
  - destruct (Nat.eqb_spec j i) as [->|D]; [reflexivity|]. cbn [w_mod w_reg]. destruct b; reflexivity.
  - reflexivity.
Qed.
Lemma loadcode_onlyI k i lv : onlyI (loadcode k i lv).
Proof. unfold loadcode. destruct (isref k i); [constructor|]. apply Forall_app. split; [apply spillcode_onlyI|]. destruct lv; repeat constructor. Qed.
Lemma isref_loaded k i : isref k i = true -> loaded k i = k.
Proof. destruct k as [[j b]|]; cbn; [|discriminate]. unfold loaded. destruct (Nat.eqb_spec j i) as [->|]; [reflexivity|discriminate]. Qed.
Lemma nisref_loaded k i : isref k i = false -> loaded k i = Some (i, false).
Proof. destruct k as [[j b]|]; cbn; [|reflexivity]. unfold loaded. destruct (Nat.eqb_spec j i) as [->|]; [discriminate|reflexivity]. Qed.
Lemma load_ok k i v m c : (nu <= i < nd)%nat -> Rel k v m c -> exists c', run lay (loadcode k i true) (c, None) = Some (c', None) /\ Rel (loaded k i) v m c'.
Proof.
  intros Hi R. unfold loadcode. destruct (isref k i) eqn:E; [rewrite (isref_loaded k i E); exists c; split; [reflexivity|exact R]|].
  rewrite (nisref_loaded k i E). destruct (spillcode_ok k v m c R) as (c1 & E1 & R1). rewrite run_app, E1, run1, dir_spilled by lia.
  unfold exec. cbn [encodable is_reg is_mem orb andb negb rds rd].
  rewrite (addr_fr _ v m c1 i R1 Hi). destruct (fr_range i Hi) as (F1 & F2 & _). rewrite F2. cbn [Z.eqb sem wrs wr]. eexists. split; [reflexivity|].
  destruct (nu_spill i Hi) as [S E10]. destruct R1 as [A1 A2 A3 A4 A5 A6 A7]. constructor; cbn [setf setr regs fl mem]; try assumption.
  - intros r H. rewrite rupd_neq; [auto|apply named_rbx, H].
  - intros j Hj. rewrite rupd_neq; [auto|apply pr_rbx; lia].
  - split; [exact S|]. split; [exact Hi|]. rewrite rupd_eq. apply A6; [exact Hi|discriminate].
  - intros j Hj _. apply A6; [exact Hj|discriminate].
Qed.
Lemma loadnv_ok k i v m c : (nu <= i < nd)%nat -> Rel k v m c -> exists c' x, run lay (loadcode k i false) (c, None) = Some (c', None) /\ Rel (Some (i, true)) (vupd v i x) m c'.
Proof.
  intros Hi R. destruct (nu_spill i Hi) as [S E10]. unfold loadcode. destruct (isref k i) eqn:E.
  - exists c, (v i). split; [reflexivity|]. apply Rel_mark with (b := match k with Some (_, b) => b | None => false end).
    apply Rel_ext with v. { intros j. unfold vupd. destruct (Nat.eqb_spec j i) as [->|]; reflexivity. }
    destruct k as [[j b]|]; [|discriminate]. cbn in E. apply Nat.eqb_eq in E. subst j. exact R.
  - destruct (spillcode_ok k v m c R) as (c1 & E1 & R1). rewrite app_nil_r. exists c1, (regs c1 RBX). split; [exact E1|].
    destruct R1 as [A1 A2 A3 A4 A5 A6 A7]. constructor; try assumption.
    + intros j Hj. rewrite vupd_neq by lia. auto.
    + split; [exact S|]. split; [exact Hi|]. rewrite vupd_eq. reflexivity.
    + intros j Hj Hk. rewrite vupd_neq by congruence. apply A6; [exact Hj|discriminate].
Qed.
Lemma mark_of k i : spill = true -> mark (alloc_of (loaded k i)) i = alloc_of (Some (i, true)).
Proof. intros S. unfold mark. rewrite !(alloc_spill _ S). unfold set_wr, loaded. cbn [avail assign needed nUsed map w_ref w_reg w_mod]. rewrite Nat.eqb_refl. reflexivity. Qed.

(** ** simulation of commands *)
Definition RelS (k : cur) (sk : option label) v m c := match sk with None => Rel k v m c | Some _ => Rel None v m c end.
Definition SIM (k : cur) (cs : list cmd) (k' : cur) : Prop := exists code, emit (alloc_of k) cs = Some (alloc_of k', code) /\
  forall v m sk c v' m' sk', RelS k sk v m c -> vrun cs (v, m, sk) = Some (v', m', sk') ->
    exists c', run lay code (c, sk) = Some (c', sk') /\ RelS k' sk' v' m' c'.
Lemma SIM_nil k : SIM k [] k.
Proof. exists []. split; [reflexivity|]. intros v m sk c v' m' sk' R E. injection E as <- <- <-. exists c. split; [reflexivity|exact R]. Qed.
Lemma emit_app a cs cs' : emit a (cs ++ cs') = match emit a cs with Some (a', l) => match emit a' cs' with Some (a'', l') => Some (a'', l ++ l') | None => None end | None => None end.
Proof.
  revert a. induction cs as [|c cs IH]; intros a; cbn; [destruct (emit a cs') as [[? ?]|]; reflexivity|].
  destruct (emit1 a c) as [[a1 l1]|]; [|reflexivity]. rewrite IH. destruct (emit a1 cs) as [[a2 l2]|]; [|reflexivity]. destruct (emit a2 cs') as [[a3 l3]|]; [|reflexivity]. rewrite app_assoc. reflexivity.
Qed.
Lemma SIM_app k cs k1 cs' k2 : SIM k cs k1 -> SIM k1 cs' k2 -> SIM k (cs ++ cs') k2.
Proof.
  intros (l1 & E1 & H1) (l2 & E2 & H2). exists (l1 ++ l2). split; [rewrite emit_app, E1, E2; reflexivity|].
  intros v m sk c v' m' sk' R E. rewrite vrun_app in E. destruct (vrun cs (v, m, sk)) as [[[v1 m1] sk1]|] eqn:Ev; [|discriminate].
  destruct (H1 _ _ _ _ _ _ _ R Ev) as (c1 & C1 & R1). destruct (H2 _ _ _ _ _ _ _ R1 E) as (c2 & C2 & R2). exists c2. split; [rewrite run_app, C1; exact C2|exact R2].
Qed.
Lemma SIM_cons k c k1 cs k2 : SIM k [c] k1 -> SIM k1 cs k2 -> SIM k (c :: cs) k2.
Proof. intros H H'. exact (SIM_app k [c] k1 cs k2 H H'). Qed.
(** one operation: the code before it brings the machine into the next state *)
Lemma SIM_op k i args k' pre os : op (alloc_of k) i args = Some (alloc_of k', pre ++ [I i os]) -> onlyI pre ->
  Forall2 (rep k') args os -> encodable i os = true -> outs_ok k' i args ->
  (forall v m c v' m', Rel k v m c -> vexec i args v m = Some (v', m') ->
     exists c1 v1 v1', run lay pre (c, None) = Some (c1, None) /\ Rel k' v1 m c1 /\ vexec i args v1 m = Some (v1', m') /\ (forall j, v1' j = v' j)) ->
  SIM k [Op i args] k'.
Proof.
  intros Eo Hp Hr He Ho Hpre. exists ((pre ++ [I i os]) ++ []). split; [cbn [emit emit1]; rewrite Eo; reflexivity|]. rewrite app_nil_r.
  intros v m sk c v' m' sk' R E. cbn [vrun vstep] in E. destruct sk as [l|].
  - injection E as <- <- <-. exists c. split; [|exact R]. apply run_skip. apply Forall_app. split; [exact Hp|repeat constructor].
  - destruct (vexec i args v m) as [[v2 m2]|] eqn:Ev; [|discriminate]. injection E as <- <- <-. cbn [RelS] in *.
    destruct (Hpre _ _ _ _ _ R Ev) as (c1 & v1 & v1' & C1 & R1 & Ev1 & X). destruct (core k' i args os v1 m c1 v1' m2 R1 Hr He Ho Ev1) as (c2 & C2 & R2).
    exists c2. split; [rewrite run_app, C1, run1, C2; reflexivity|]. exact (Rel_ext _ _ _ _ _ X R2).
Qed.

Definition oarg (x : arg) : opd := match x with AV i => dir i | AR r => OReg r | AM b off => OMem b off end.
Definition dirarg (k : cur) (x : arg) : Prop :=
  match x with AV i => (i < nd)%nat /\ isref k i = false | AR r => named r | AM (BReg r) _ => named r | AM (BSym _) _ => True end.
Lemma isref_ne k i : isref k i = false -> forall b, k <> Some (i, b).
Proof. intros H b ->. cbn in H. rewrite Nat.eqb_refl in H. discriminate. Qed.
Lemma rep_dir k x : dirarg k x -> rep k x (oarg x).
Proof.
  destruct x as [i|r|[r|sy] off]; cbn [dirarg oarg]; intros H.
  - unfold dir. destruct (Nat.ltb_spec i nu); [apply rep_reg; assumption|]. apply rep_frame; [lia|apply isref_ne, H].
  - apply rep_AR, H.
  - apply rep_AMr, H.
  - apply rep_AMs.
Qed.
Lemma isref_low k i : wfk k -> (i < nu)%nat -> isref k i = false.
Proof. destruct k as [[j b]|]; cbn; [|reflexivity]. intros H Hi. apply Nat.eqb_neq. lia. Qed.
Lemma spilled_spill i : (nu <= i < nd)%nat -> spill = true. Proof. intros H. apply nu_spill with (i := i), H. Qed.
Lemma dir_low i : (i < nu)%nat -> dir i = OReg (pr i).
Proof. intros H. unfold dir. destruct (Nat.ltb_spec i nu); [reflexivity|lia]. Qed.
Lemma nud k : nUsed (alloc_of k) = nu. Proof. apply nUsed_alloc. Qed.
Lemma ltb_t a b : (a < b)%nat -> (a <? b)%nat = true. Proof. intros; apply Nat.ltb_lt; assumption. Qed.
Lemma ltb_f a b : (b <= a)%nat -> (a <? b)%nat = false. Proof. intros; apply Nat.ltb_ge; assumption. Qed.
Lemma leb_t a b : (a <= b)%nat -> (a <=? b)%nat = true. Proof. intros; apply Nat.leb_le; assumption. Qed.
Lemma leb_f a b : (b < a)%nat -> (a <=? b)%nat = false. Proof. intros; apply Nat.leb_gt; assumption. Qed.
Ltac opred := unfold op; cbn [modes length Nat.eqb negb choose params nth_error md mI mO mR orb andb]; rewrite ?nud, ?regRef_dir.
Lemma rep_dirs k args : Forall (dirarg k) args -> Forall2 (rep k) args (map oarg args).
Proof. induction args as [|x args IH]; intros H; cbn [map]; [constructor|]. inversion H; subst. constructor; [apply rep_dir; assumption|auto]. Qed.
(** no reference is loaded *)
Lemma SIM_direct k i args os : op (alloc_of k) i args = Some (alloc_of k, [I i os]) -> os = map oarg args -> Forall (dirarg k) args -> encodable i os = true -> SIM k [Op i args] k.
Proof.
  intros E -> H En. apply (SIM_op k i args k [] _ E).
  - constructor.
  - exact (rep_dirs k args H).
  - exact En.
  - intros _ rdx l f vs f' _ j n y Hn _. apply isref_ne. rewrite Forall_forall in H. apply nth_error_In in Hn. apply H in Hn. apply Hn.
  - intros v m c v' m' R Ev. exists c, v, v'. split; [reflexivity|]. auto.
Qed.
Definition addk (k : cur) (a : nat) : cur := if (a <? nu)%nat then k else Some (a, true).
Lemma loaded_true_wf k i v m c : Rel (loaded k i) v m c -> Rel (Some (i, true)) v m c.
Proof. apply Rel_mark. Qed.
Lemma S_add (x : bool) k a b : wfk k -> (a < nd)%nat -> (b < nd)%nat -> a <> b -> (a < nu)%nat /\ isref k b = false \/ (nu <= a)%nat ->
  SIM k [Op (if x then Iadcx else Iadox) [AV a; AV b]] (addk k a).
Proof.
  intros W Ha Hb D H. unfold addk. destruct (Nat.ltb_spec a nu) as [L|L].
  - destruct H as [[_ H]|H]; [|lia]. apply SIM_direct with (os := map oarg [AV a; AV b]).
    + destruct x; opred; rewrite (leb_f nu a L), (ltb_t a nu L); destruct (Nat.leb_spec nu b) as [Lb|Lb]; rewrite ?(ltb_t b nu), ?(ltb_f b nu) by lia; reflexivity.
    + reflexivity.
    + constructor; [split; [exact Ha|apply isref_low; assumption]|constructor; [split; [exact Hb|exact H]|constructor]].
    + cbn [map oarg]. rewrite (dir_low a L). unfold dir. destruct x; destruct (b <? nu)%nat; reflexivity.
  - pose proof (spilled_spill a ltac:(lia)) as S.
    apply SIM_op with (pre := loadcode k a true) (os := [OReg RBX; oarg (AV b)]).
    + assert (Hop : forall j, j = Iadcx \/ j = Iadox -> op (alloc_of k) j [AV a; AV b] = Some (alloc_of (Some (a, true)), loadcode k a true ++ [I j [OReg RBX; oarg (AV b)]])).
      { intros j Hj. unfold op. replace (modes j) with [md true true true; md true false false] by (destruct Hj as [-> | ->]; reflexivity).
        cbn [length Nat.eqb negb choose params md mI mO mR orb andb]. rewrite nud, (leb_t nu a L), (ltb_f a nu L). cbn [orb].
        destruct (Nat.leb_spec nu b) as [Lb|Lb]; cbn [nth_error]; rewrite Nat.eqb_refl, (loadWr_of k a true S), (mark_of k a S), nud, ?(ltb_t b nu), ?(ltb_f b nu) by lia.
        - destruct (Nat.eqb_spec b a) as [E|_]; [congruence|]. rewrite regRef_dir, app_nil_r. reflexivity.
        - rewrite regRef_dir, app_nil_r. reflexivity. }
      apply Hop. destruct x; auto.
    + apply loadcode_onlyI.
    + constructor; [eapply rep_wr; reflexivity|]. constructor; [|constructor]. apply rep_dir. split; [exact Hb|]. cbn. apply Nat.eqb_neq. exact D.
    + cbn [oarg]. unfold dir. destruct x; destruct (b <? nu)%nat; reflexivity.
    + intros _ rdx l f vs f' _ j n y _ _. discriminate.
    + intros v m c v' m' R Ev. destruct (load_ok k a v m c ltac:(lia) R) as (c1 & E1 & R1). exists c1, v, v'. split; [exact E1|]. split; [eapply Rel_mark, R1|]. auto.
Qed.
(** mulx hi, lo, src with hi in a register *)
Definition src_ok (x : arg) : Prop := match x with AV _ => False | AR r => named r | AM (BReg r) _ => named r | AM (BSym _) _ => True end.
Lemma src_dir k x : src_ok x -> dirarg k x. Proof. destruct x; cbn; [intros []|auto|auto]. Qed.
Lemma vrd_src v v' m x : src_ok x -> vrd v m x = vrd v' m x. Proof. destruct x; cbn; [intros []|reflexivity|reflexivity]. Qed.
Lemma src_enc x : src_ok x -> is_reg (oarg x) || is_mem (oarg x) = true. Proof. destruct x; cbn; [intros []|reflexivity|reflexivity]. Qed.
Lemma vexec_mulx a l s v m : vexec Imulx [AV a; AV l; s] v m =
  match vrd v m s with Some y => Some (vupd (vupd v l (regs m RDX * y mod B)) a (regs m RDX * y / B), setf m (fl m)) | None => None end.
Proof. unfold vexec. cbn [vrds]. destruct (vrd v m s); [|reflexivity]. reflexivity. Qed.
Lemma S_mulx k a l s : wfk k -> (a < nu)%nat -> (l < nd)%nat -> src_ok s -> SIM k [Op Imulx [AV a; AV l; s]] (addk k l).
Proof.
  intros W Ha Hl Hs. unfold addk. pose proof nu_nd as ND. destruct (Nat.ltb_spec l nu) as [L|L].
  - apply SIM_direct with (os := map oarg [AV a; AV l; s]).
    + opred. rewrite (leb_f nu a Ha), (leb_f nu l L), (ltb_t a nu Ha), (ltb_t l nu L), ?regRef_dir. destruct s; [destruct Hs|reflexivity|reflexivity].
    + reflexivity.
    + constructor; [split; [lia|apply isref_low; assumption]|]. constructor; [split; [lia|apply isref_low; assumption]|]. constructor; [apply src_dir, Hs|constructor].
    + cbn [map oarg encodable]. rewrite (dir_low a Ha), (dir_low l L). exact (src_enc s Hs).
  - pose proof (spilled_spill l ltac:(lia)) as S.
    apply SIM_op with (pre := loadcode k l false) (os := [OReg (pr a); OReg RBX; oarg s]).
    + opred. rewrite (leb_f nu a Ha), (leb_t nu l L), (ltb_t a nu Ha), (ltb_f l nu L), ?regRef_dir, (dir_low a Ha). cbn [orb].
      destruct s as [?|r|b o]; [destruct Hs| |]; cbn [nth_error oarg]; rewrite Nat.eqb_refl, (loadWr_of k l false S), (mark_of k l S), app_nil_r; reflexivity.
    + apply loadcode_onlyI.
    + constructor; [apply rep_reg, Ha|]. constructor; [eapply rep_wr; reflexivity|]. constructor; [|constructor]. apply rep_dir, src_dir, Hs.
    + exact (src_enc s Hs).
    + intros _ rdx l' f vs f' _ j n y _ _. discriminate.
    + intros v m c v' m' R Ev. destruct (loadnv_ok k l v m c ltac:(lia) R) as (c1 & x & E1 & R1).
      rewrite vexec_mulx in Ev. rewrite (vrd_src v (vupd v l x) m s Hs) in Ev. destruct (vrd (vupd v l x) m s) as [y|] eqn:Es; [|discriminate]. injection Ev as <- <-.
      exists c1, (vupd v l x), (vupd (vupd (vupd v l x) l (regs m RDX * y mod B)) a (regs m RDX * y / B)). split; [exact E1|]. split; [exact R1|]. split; [rewrite vexec_mulx, Es; reflexivity|].
      intros j. unfold vupd. destruct (Nat.eqb j a); [reflexivity|]. destruct (Nat.eqb j l); reflexivity.
Qed.

Lemma S_movr k r x : wfk k -> named r -> match x with AV i => (i < nu)%nat | _ => src_ok x end -> SIM k [Op Imov [AR r; x]] k.
Proof.
  intros W Hr Hx. pose proof nu_nd as ND. apply SIM_direct with (os := map oarg [AR r; x]).
  - opred. destruct x as [i|r'|b off]; cbn [map oarg]; [|reflexivity|reflexivity]. rewrite (leb_f nu i Hx), (ltb_t i nu Hx), ?regRef_dir. reflexivity.
  - reflexivity.
  - constructor; [exact Hr|]. constructor; [|constructor]. destruct x as [i|r'|b off]; [split; [lia|apply isref_low; assumption]|exact Hx|exact Hx].
  - destruct x; [cbn [map oarg]; rewrite (dir_low _ Hx); reflexivity|reflexivity|reflexivity].
Qed.
Lemma S_xor k i : wfk k -> (i < nu)%nat -> SIM k [Op Ixor [AV i; AV i]] k.
Proof.
  intros W Hi. pose proof nu_nd as ND. apply SIM_direct with (os := map oarg [AV i; AV i]).
  - opred. rewrite (leb_f nu i Hi), (ltb_t i nu Hi), ?regRef_dir. reflexivity.
  - reflexivity.
  - repeat constructor; solve [lia|apply isref_low; assumption].
  - cbn [map oarg]. rewrite (dir_low _ Hi). reflexivity.
Qed.
Lemma S_mulxq k a i : wfk k -> (a < nu)%nat -> (i < nu)%nat -> SIM k [Op Imulx [AV a; AR RDX; AV i]] k.
Proof.
  intros W Ha Hi. pose proof nu_nd as ND. apply SIM_direct with (os := map oarg [AV a; AR RDX; AV i]).
  - opred. rewrite (leb_f nu i Hi), (leb_f nu a Ha), (ltb_t i nu Hi), (ltb_t a nu Ha), ?regRef_dir. reflexivity.
  - reflexivity.
  - constructor; [split; [lia|apply isref_low; assumption]|]. constructor; [right; left; reflexivity|]. constructor; [split; [lia|apply isref_low; assumption]|constructor].
  - cbn [map oarg]. rewrite (dir_low _ Hi), (dir_low _ Ha). reflexivity.
Qed.
Lemma S_movz k i j : wfk k -> (i < nd)%nat -> (j < nu)%nat -> isref k i = false -> SIM k [Op Imov [AV i; AV j]] k.
Proof.
  intros W Hi Hj H. pose proof nu_nd as ND. apply SIM_direct with (os := map oarg [AV i; AV j]).
  - opred. rewrite (leb_f nu j Hj), (ltb_t j nu Hj), ?regRef_dir. cbn [map oarg orb]. destruct (Nat.leb_spec nu i); rewrite ?(ltb_f i nu), ?(ltb_t i nu) by lia; reflexivity.
  - reflexivity.
  - constructor; [split; assumption|]. constructor; [split; [lia|apply isref_low; assumption]|constructor].
  - cbn [map oarg]. rewrite (dir_low _ Hj). unfold dir. destruct (i <? nu)%nat; reflexivity.
Qed.
Definition mem_arg (x : arg) : Prop := match x with AM (BReg r) _ => named r | AM (BSym _) _ => True | _ => False end.
Lemma mem_src x : mem_arg x -> src_ok x. Proof. destruct x; cbn; auto. intros []. Qed.
Lemma vexec_mov i s v m : vexec Imov [AV i; s] v m = match vrd v m s with Some y => Some (vupd v i y, setf m (fl m)) | None => None end.
Proof. unfold vexec. cbn [vrds]. destruct (vrd v m s); [|reflexivity]. reflexivity. Qed.
Lemma S_movm k i s : wfk k -> (i < nd)%nat -> mem_arg s -> SIM k [Op Imov [AV i; s]] (addk k i).
Proof.
  intros W Hi Hs. unfold addk. pose proof nu_nd as ND. destruct s as [?|?|b off]; [destruct Hs|destruct Hs|]. destruct (Nat.ltb_spec i nu) as [L|L].
  - apply SIM_direct with (os := map oarg [AV i; AM b off]).
    + opred. rewrite (leb_f nu i L), (ltb_t i nu L), ?regRef_dir. reflexivity.
    + reflexivity.
    + constructor; [split; [lia|apply isref_low; assumption]|]. constructor; [apply src_dir, mem_src, Hs|constructor].
    + cbn [map oarg]. rewrite (dir_low i L). reflexivity.
  - pose proof (spilled_spill i ltac:(lia)) as S.
    apply SIM_op with (pre := loadcode k i false) (os := [OReg RBX; OMem b off]).
    + opred. rewrite (leb_t nu i L), (ltb_f i nu L). cbn [orb nth_error]. rewrite Nat.eqb_refl, (loadWr_of k i false S), (mark_of k i S), app_nil_r. reflexivity.
    + apply loadcode_onlyI.
    + constructor; [eapply rep_wr; reflexivity|]. constructor; [|constructor]. apply (rep_dir _ (AM b off)), src_dir, mem_src, Hs.
    + reflexivity.
    + intros _ rdx l' f vs f' _ j n y _ _. discriminate.
    + intros v m c v' m' R Ev. destruct (loadnv_ok k i v m c ltac:(lia) R) as (c1 & x & E1 & R1).
      rewrite vexec_mov in Ev. rewrite (vrd_src v (vupd v i x) m (AM b off) (mem_src _ Hs)) in Ev. destruct (vrd (vupd v i x) m (AM b off)) as [y|] eqn:Es; [|discriminate]. injection Ev as <- <-.
      exists c1, (vupd v i x), (vupd (vupd v i x) i y). split; [exact E1|]. split; [exact R1|]. split; [rewrite vexec_mov, Es; reflexivity|].
      intros j. unfold vupd. destruct (Nat.eqb j i); reflexivity.
Qed.
Lemma S_subm (x : bool) k i s : wfk k -> (i < nd)%nat -> mem_arg s -> SIM k [Op (if x then Isub else Isbb) [AV i; s]] (addk k i).
Proof.
  intros W Hi Hs. unfold addk. pose proof nu_nd as ND. destruct s as [?|?|b off]; [destruct Hs|destruct Hs|]. destruct (Nat.ltb_spec i nu) as [L|L].
  - apply SIM_direct with (os := map oarg [AV i; AM b off]).
    + destruct x; opred; rewrite (leb_f nu i L), (ltb_t i nu L), ?regRef_dir; reflexivity.
    + reflexivity.
    + constructor; [split; [lia|apply isref_low; assumption]|]. constructor; [apply src_dir, mem_src, Hs|constructor].
    + cbn [map oarg]. rewrite (dir_low i L). destruct x; reflexivity.
  - pose proof (spilled_spill i ltac:(lia)) as S.
    apply SIM_op with (pre := loadcode k i true) (os := [OReg RBX; OMem b off]).
    + destruct x; opred; rewrite (leb_t nu i L), (ltb_f i nu L); cbn [orb nth_error]; rewrite Nat.eqb_refl, (loadWr_of k i true S), (mark_of k i S), app_nil_r; reflexivity.
    + apply loadcode_onlyI.
    + constructor; [eapply rep_wr; reflexivity|]. constructor; [|constructor]. apply (rep_dir _ (AM b off)), src_dir, mem_src, Hs.
    + destruct x; reflexivity.
    + intros _ rdx l' f vs f' _ j n y _ _. discriminate.
    + intros v m c v' m' R Ev. destruct (load_ok k i v m c ltac:(lia) R) as (c1 & E1 & R1). exists c1, v, v'. split; [exact E1|]. split; [eapply Rel_mark, R1|]. auto.
Qed.
Definition ldk (k : cur) (a : nat) : cur := if (a <? nu)%nat then k else loaded k a.
Lemma S_cmp k i s : wfk k -> (i < nd)%nat -> mem_arg s -> SIM k [Op Icmp [AV i; s]] (ldk k i).
Proof.
  intros W Hi Hs. unfold ldk. pose proof nu_nd as ND. destruct s as [?|?|b off]; [destruct Hs|destruct Hs|]. destruct (Nat.ltb_spec i nu) as [L|L].
  - apply SIM_direct with (os := map oarg [AV i; AM b off]).
    + opred; rewrite (leb_f nu i L), (ltb_t i nu L), ?regRef_dir; reflexivity.
    + reflexivity.
    + constructor; [split; [lia|apply isref_low; assumption]|]. constructor; [apply src_dir, mem_src, Hs|constructor].
    + cbn [map oarg]. rewrite (dir_low i L). reflexivity.
  - pose proof (spilled_spill i ltac:(lia)) as S.
    apply SIM_op with (pre := loadcode k i true) (os := [OReg RBX; OMem b off]).
    + opred; rewrite (leb_t nu i L), (ltb_f i nu L); cbn [orb nth_error]; rewrite Nat.eqb_refl, (loadWr_of k i true S), app_nil_r; reflexivity.
    + apply loadcode_onlyI.
    + constructor; [eapply rep_wr; reflexivity|]. constructor; [|constructor]. apply (rep_dir _ (AM b off)), src_dir, mem_src, Hs.
    + reflexivity.
    + intros _ rdx l' f vs f' E j n y Hn Hv. destruct l' as [|? [|? [|? ?]]]; try discriminate E. cbn in E. injection E as <- <-. do 3 (destruct j as [|j]; [discriminate Hv|]). discriminate Hv.
    + intros v m c v' m' R Ev. destruct (load_ok k i v m c ltac:(lia) R) as (c1 & E1 & R1). exists c1, v, v'. split; [exact E1|]. split; [exact R1|]. auto.
Qed.
Lemma S_test k i : wfk k -> (i < nd)%nat -> SIM k [Op Itest [AV i; AV i]] (ldk k i).
Proof.
  intros W Hi. unfold ldk. pose proof nu_nd as ND. destruct (Nat.ltb_spec i nu) as [L|L].
  - apply SIM_direct with (os := map oarg [AV i; AV i]).
    + opred; rewrite (leb_f nu i L), (ltb_t i nu L), ?regRef_dir; reflexivity.
    + reflexivity.
    + repeat constructor; solve [lia|apply isref_low; assumption].
    + cbn [map oarg]. rewrite (dir_low i L). reflexivity.
  - pose proof (spilled_spill i ltac:(lia)) as S.
    apply SIM_op with (pre := loadcode k i true) (os := [OReg RBX; OReg RBX]).
    + opred; rewrite (leb_t nu i L), (ltb_f i nu L); cbn [orb nth_error]; rewrite Nat.eqb_refl, (loadWr_of k i true S), nud, (ltb_f i nu L), (loadWr_of _ i true S).
      assert (L2 : loaded (loaded k i) i = loaded k i) by (unfold loaded; rewrite Nat.eqb_refl; reflexivity). rewrite L2.
      replace (loadcode (loaded k i) i true) with (@nil instr) by (unfold loadcode, loaded, isref; rewrite Nat.eqb_refl; reflexivity). rewrite !app_nil_r. reflexivity.
    + apply loadcode_onlyI.
    + constructor; [eapply rep_wr; reflexivity|]. constructor; [eapply rep_wr; reflexivity|constructor].
    + reflexivity.
    + intros _ rdx l' f vs f' E j n y Hn Hv. destruct l' as [|? [|? [|? ?]]]; try discriminate E. cbn in E. injection E as <- <-. do 3 (destruct j as [|j]; [discriminate Hv|]). discriminate Hv.
    + intros v m c v' m' R Ev. destruct (load_ok k i v m c ltac:(lia) R) as (c1 & E1 & R1). exists c1, v, v'. split; [exact E1|]. split; [exact R1|]. auto.
Qed.
Lemma S_out k i s : wfk k -> (i < nd)%nat -> mem_arg s -> SIM k [Op Imov [s; AV i]] (ldk k i).
Proof.
  intros W Hi Hs. unfold ldk. pose proof nu_nd as ND. destruct s as [?|?|b off]; [destruct Hs|destruct Hs|]. destruct (Nat.ltb_spec i nu) as [L|L].
  - apply SIM_direct with (os := map oarg [AM b off; AV i]).
    + opred; rewrite (leb_f nu i L), (ltb_t i nu L), ?regRef_dir; reflexivity.
    + reflexivity.
    + constructor; [apply src_dir, mem_src, Hs|]. constructor; [split; [lia|apply isref_low; assumption]|constructor].
    + cbn [map oarg]. rewrite (dir_low i L). reflexivity.
  - pose proof (spilled_spill i ltac:(lia)) as S.
    apply SIM_op with (pre := loadcode k i true) (os := [OMem b off; OReg RBX]).
    + opred; rewrite (leb_t nu i L), (ltb_f i nu L); cbn [orb nth_error]; rewrite Nat.eqb_refl, (loadWr_of k i true S), app_nil_r; reflexivity.
    + apply loadcode_onlyI.
    + constructor; [apply (rep_dir _ (AM b off)), src_dir, mem_src, Hs|]. constructor; [eapply rep_wr; reflexivity|constructor].
    + reflexivity.
    + intros _ rdx l' f vs f' E j n y Hn Hv. destruct j as [|j]; [discriminate Hn|]. destruct l' as [|? [|? [|? ?]]]; try discriminate E. cbn in E. injection E as <- <-. do 3 (destruct j as [|j]; [discriminate Hv|]). discriminate Hv.
    + intros v m c v' m' R Ev. destruct (load_ok k i v m c ltac:(lia) R) as (c1 & E1 & R1). exists c1, v, v'. split; [exact E1|]. split; [exact R1|]. auto.
Qed.
Definition clean (k : cur) : Prop := match k with Some (_, b) => b = false | None => True end.
Definition cleank (k : cur) : cur := match k with Some (i, _) => Some (i, false) | None => None end.
Lemma clean_None k v m c : clean k -> Rel k v m c -> Rel None v m c.
Proof. destruct k as [[i b]|]; cbn; [intros ->; apply Rel_drop|auto]. Qed.
Lemma clean_ldk k i : clean k -> clean (ldk k i).
Proof. unfold ldk, loaded. destruct (i <? nu)%nat; [auto|]. destruct k as [[j b]|]; cbn; [|reflexivity]. intros ->. destruct (Nat.eqb j i); reflexivity. Qed.
Lemma clean_cleank k : clean (cleank k). Proof. destruct k as [[i b]|]; cbn; auto. Qed.
Lemma wfk_ldk k i : wfk k -> (i < nd)%nat -> wfk (ldk k i).
Proof. intros W H. unfold ldk, loaded. destruct (Nat.ltb_spec i nu) as [L|L]; [exact W|]. cbn. split; [apply spilled_spill with i; lia|lia]. Qed.
Lemma wfk_addk k i : wfk k -> (i < nd)%nat -> wfk (addk k i).
Proof. intros W H. unfold addk. destruct (Nat.ltb_spec i nu) as [L|L]; [exact W|]. cbn. split; [apply spilled_spill with i; lia|lia]. Qed.
Lemma wfk_cleank k : wfk k -> wfk (cleank k). Proof. destruct k as [[i b]|]; cbn; auto. Qed.
Lemma S_jump k c l : clean k -> SIM k [Jump c l] k.
Proof.
  intros C. exists [J c l]. split; [reflexivity|]. intros v m sk cm v' m' sk' R E. cbn [vrun vstep] in E. destruct sk as [l'|].
  - injection E as <- <- <-. exists cm. split; [reflexivity|exact R].
  - injection E as <- <- <-. exists cm. cbn [run step]. rewrite (r_fl _ _ _ _ R). split; [reflexivity|]. destruct (holds_cond c (fl m)); cbn [RelS]; [apply (clean_None k); assumption|exact R].
Qed.
Lemma flush_code k rm : wfk k -> flushWr (alloc_of k) rm = (alloc_of (if rm then None else cleank k), spillcode k).
Proof.
  intros W. unfold flushWr. destruct k as [[i b]|].
  - destruct W as [S _]. unfold spillcode. rewrite !(alloc_spill _ S). cbn [assign avail rev app filter w_mod]. destruct b, rm; cbn [map cleank]; rewrite ?(alloc_spill _ S); reflexivity.
  - cbn [cleank spillcode]. unfold alloc_of. destruct spill, rm; reflexivity.
Qed.
Lemma S_flush k rm : wfk k -> SIM k [Flush rm] (if rm then None else cleank k).
Proof.
  intros W. exists (spillcode k ++ []). split; [cbn [emit emit1]; rewrite (flush_code k rm W); reflexivity|]. rewrite app_nil_r.
  intros v m sk cm v' m' sk' R E. cbn [vrun vstep] in E. destruct sk as [l'|].
  - injection E as <- <- <-. exists cm. split; [apply run_skip, spillcode_onlyI|exact R].
  - injection E as <- <- <-. cbn [RelS] in *. destruct k as [[i [|]]|]; cbn [cleank spillcode].
    + destruct (store_ok _ i true v m cm (ex_intro _ true eq_refl) R) as (c' & E & R'). exists c'. split; [exact E|]. destruct rm; [eapply Rel_drop, R'|exact R'].
    + exists cm. split; [reflexivity|]. destruct rm; [eapply Rel_drop, R|exact R].
    + exists cm. split; [reflexivity|]. destruct rm; exact R.
Qed.
Lemma S_label k l : wfk k -> clean k -> SIM k [Label l] None.
Proof.
  intros W C. assert (Ec : spillcode k = []) by (destruct k as [[i b]|]; cbn in *; [rewrite C|]; reflexivity).
  exists [Lab l]. split; [cbn [emit emit1]; rewrite (flush_code k true W), Ec; reflexivity|].
  intros v m sk cm v' m' sk' R E. cbn [vrun vstep] in E. cbn [run step]. destruct sk as [l'|]; injection E as <- <- <-; exists cm; (split; [reflexivity|]).
  - cbn [RelS] in *. destruct (Nat.eqb l' l); exact R.
  - apply (clean_None k); assumption.
Qed.
End Sim.
