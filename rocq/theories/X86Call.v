(** Calls of the generated Montgomery routines: prologue, body and epilogue. *)
From Coq Require Import ZArith List Bool Arith Lia.
From Verif Require Import Limbs LimbsFacts X86 X86Gen X86Sim X86Sim2 X86Mont X86Mont2.
Import ListNotations.
Open Scope Z_scope.

(** ** vocabulary of the statements *)
Definition words (m : mach) : Prop := (forall r, 0 <= regs m r < B) /\ (forall x, 0 <= mem m x < B).
(** [l] at address [p], aligned *)
Definition at_addr (m : mach) (p : Z) (l : list Z) : Prop :=
  0 <= p /\ p mod 8 = 0 /\ p + 8 * Z.of_nat (length l) <= B /\ forall j, (j < length l)%nat -> mem m (p + 8 * Z.of_nat j) = nth j l 0.
(** bytes of stack used below the return address *)
Definition stackBytes (n : nat) (opt : bool) : Z :=
  let nd := neededFor n opt in 8 * Z.of_nat (length (pushedRegs nd) + (nd - nUsed (newBuilder nd))).
(** the stack is aligned and there is room *)
Definition stack_ok (n : nat) (opt : bool) (m : mach) : Prop :=
  regs m RSP mod 8 = 0 /\ stackBytes n opt <= regs m RSP /\ regs m RSP + 8 <= B.
(** [k] words at [p] away from the stack frame and the return address *)
Definition off_stack (n : nat) (opt : bool) (m : mach) (p : Z) (k : nat) : Prop :=
  p + 8 * Z.of_nat k <= regs m RSP - stackBytes n opt \/ regs m RSP + 8 <= p.
(** the registers of the System V convention the callee may not change, and rdi, rsi *)
Definition callee_saved (r : reg) : Prop := In r [RBX; RBP; R12; R13; R14; R15].
Definition kept (r : reg) : Prop := callee_saved r \/ r = RDI \/ r = RSI.

Lemma reg_dec (a b : reg) : {a = b} + {a <> b}.
Proof. decide equality. Defined.
(** ** push and pop *)
Section Call.
Variable lay : sym -> Z.
Lemma regs_RSP r (rs : list reg) : ~ In RSP (r :: rs) -> r <> RSP /\ ~ In RSP rs.
Proof. cbn. intuition. Qed.
Lemma push_run rs : forall c, ~ In RSP rs -> regs c RSP mod 8 = 0 -> 8 * Z.of_nat (length rs) <= regs c RSP < B ->
  exists c', run lay (rev (map Push rs)) (c, None) = Some (c', None) /\ (forall r, r <> RSP -> regs c' r = regs c r) /\ regs c' RSP = regs c RSP - 8 * Z.of_nat (length rs) /\
    (forall i, (i < length rs)%nat -> mem c' (regs c' RSP + 8 * Z.of_nat i) = regs c (nth i rs RAX)) /\
    (forall x, x < regs c' RSP \/ regs c RSP <= x -> mem c' x = mem c x) /\ (words c -> words c').
Proof.
  induction rs as [|r rs IH]; intros c Hr H8 HL.
  - exists c. cbn. split; [reflexivity|]. split; [auto|]. split; [lia|]. split; [intros; lia|auto].
  - apply regs_RSP in Hr as [Hr Hrs]. cbn [length] in HL. destruct (IH c Hrs H8 ltac:(lia)) as (c1 & E1 & R1 & S1 & M1 & O1 & W1). cbn [map rev]. rewrite run_app, E1. cbn [run step].
    rewrite S1. set (a := regs c RSP - 8 * Z.of_nat (length rs) - 8). assert (Ea : a mod B = a) by (apply Z.mod_small; unfold a; lia).
    assert (Ea8 : a mod 8 = 0). { unfold a. replace (regs c RSP - 8 * Z.of_nat (length rs) - 8) with (regs c RSP + (- Z.of_nat (length rs) - 1) * 8) by lia. rewrite Z.mod_add by lia. exact H8. }
    rewrite Ea, Ea8. cbn [Z.eqb]. eexists. split; [reflexivity|]. cbn [setr setm regs mem]. rewrite rupd_eq. split; [|split; [|split; [|split]]].
    + intros x Hx. rewrite rupd_neq by exact Hx. apply R1, Hx.
    + unfold a. cbn [length]. lia.
    + intros i Hi. cbn [length] in Hi. destruct i as [|i].
      * cbn [Z.of_nat nth]. rewrite Z.mul_0_r, Z.add_0_r, mupd_eq. apply R1, Hr.
      * cbn [nth]. rewrite mupd_neq by lia. rewrite <- M1 by lia. f_equal. rewrite S1. unfold a. lia.
    + intros x Hx. rewrite mupd_neq by (unfold a in *; lia). apply O1. rewrite S1. unfold a in *. lia.
    + intros W. destruct (W1 W) as [Wr Wm]. split.
      * intros x. cbn [setr regs setm]. unfold rupd. destruct (reg_eqb x RSP); [unfold a; lia|apply Wr].
      * intros x. cbn [setr mem setm]. unfold mupd. destruct (x =? a); [apply Wr|apply Wm].
Qed.
Lemma pop_run rs : forall c, ~ In RSP rs -> NoDup rs -> regs c RSP mod 8 = 0 -> 0 <= regs c RSP -> regs c RSP + 8 * Z.of_nat (length rs) < B ->
  exists c', run lay (map Pop rs) (c, None) = Some (c', None) /\ (forall r, r <> RSP -> ~ In r rs -> regs c' r = regs c r) /\ regs c' RSP = regs c RSP + 8 * Z.of_nat (length rs) /\
    (forall i, (i < length rs)%nat -> regs c' (nth i rs RAX) = mem c (regs c RSP + 8 * Z.of_nat i)) /\ mem c' = mem c.
Proof.
  induction rs as [|r rs IH]; intros c Hr ND H8 H0 HL.
  - exists c. cbn. split; [reflexivity|]. split; [auto|]. split; [lia|]. split; [intros; lia|auto].
  - apply regs_RSP in Hr as [Hr Hrs]. inversion ND as [|? ? N1 N2]; subst. cbn [length] in HL. cbn [map run step]. rewrite H8. cbn [Z.eqb].
    set (c0 := setr (setr c RSP ((regs c RSP + 8) mod B)) r (mem c (regs c RSP))).
    assert (E0 : regs c0 RSP = regs c RSP + 8) by (unfold c0; cbn [setr regs]; rewrite rupd_neq by congruence; rewrite rupd_eq; apply Z.mod_small; lia).
    destruct (IH c0 Hrs N2) as (c1 & E1 & R1 & S1 & M1 & O1); [rewrite E0; replace (regs c RSP + 8) with (regs c RSP + 1 * 8) by lia; rewrite Z.mod_add by lia; exact H8|lia|lia|].
    exists c1. split; [exact E1|]. split; [|split; [|split]].
    + intros x Hx Hn. cbn [In] in Hn. rewrite R1 by (tauto || exact Hx). unfold c0. cbn [setr regs]. rewrite !rupd_neq by (congruence || intuition). reflexivity.
    + rewrite S1, E0. cbn [length]. lia.
    + intros i Hi. cbn [length] in Hi. destruct i as [|i]; cbn [nth].
      * rewrite R1 by assumption. unfold c0. cbn [setr regs]. rewrite rupd_eq. f_equal. cbn [Z.of_nat]. lia.
      * rewrite M1 by lia. unfold c0. cbn [setr mem]. f_equal. fold c0. rewrite E0. lia.
    + rewrite O1. reflexivity.
Qed.
Lemma add_rsp (c : mach) k : 0 <= k -> 0 <= regs c RSP -> regs c RSP + k < B -> exists f, run lay [I Iadd [OReg RSP; OImm k]] (c, None) = Some (setf (setr c RSP (regs c RSP + k)) f, None).
Proof.
  intros Hk H0 H. rewrite run1. unfold exec. cbn [encodable is_reg is_mem orb andb negb rds rd sem]. unfold addf. cbn [wrs wr]. rewrite Z.add_0_r, (Z.mod_small (regs c RSP + k)) by lia. eexists. reflexivity.
Qed.
Lemma sub_rsp (c : mach) k : 0 <= k <= regs c RSP -> regs c RSP < B -> exists f, run lay [I Isub [OReg RSP; OImm k]] (c, None) = Some (setf (setr c RSP (regs c RSP - k)) f, None).
Proof.
  intros Hk H. rewrite run1. unfold exec. cbn [encodable is_reg is_mem orb andb negb rds rd sem]. unfold subf. cbn [wrs wr]. rewrite Z.sub_0_r, (Z.mod_small (regs c RSP - k)) by lia. eexists. reflexivity.
Qed.

(** ** the whole routine *)
Variable n : nat.
Variable opt : bool.
Hypothesis Hn : (1 <= n)%nat.
Notation nd := (neededFor n opt).
Lemma nd6 : (6 <= nd)%nat. Proof. unfold neededFor. destruct opt; lia. Qed.
Lemma nused : nUsed (newBuilder nd) = nu nd.
Proof. rewrite alloc_new. apply nUsed_alloc. Qed.
Lemma pushed_NoDup : NoDup (pushedRegs nd).
Proof.
  assert (N : NoDup pushableRegs) by (repeat (constructor; [cbn; intuition discriminate|]); constructor). unfold pushedRegs. destruct (_ <? nd)%nat; [exact N|].
  rewrite <- (firstn_skipn (nd - length availableRegs) pushableRegs) in N. revert N. generalize (skipn (nd - length availableRegs) pushableRegs). induction (firstn (nd - length availableRegs) pushableRegs) as [|x l IH]; intros l' N; [constructor|].
  cbn [app] in N. inversion N as [|? ? N1 N2]; subst. constructor; [|apply (IH l'), N2]. intros C. apply N1, in_or_app. left. exact C.
Qed.
Lemma pushed_incl r : In r (pushedRegs nd) -> callee_saved r.
Proof.
  intros H. assert (In r pushableRegs). { unfold pushedRegs in H. destruct (_ <? nd)%nat; [exact H|]. rewrite <- (firstn_skipn (nd - length availableRegs) pushableRegs). apply in_or_app. left. exact H. }
  unfold callee_saved. cbn in *. intuition.
Qed.
Lemma pushed_RSP : ~ In RSP (pushedRegs nd).
Proof. intros H. apply pushed_incl in H. cbn in H. intuition discriminate. Qed.
Lemma nth_firstn_in {A} (d : A) : forall l k i, (i < k)%nat -> nth i (firstn k l) d = nth i l d.
Proof. induction l as [|x l IH]; intros k i H; destruct k; try lia; [reflexivity|]. cbn [firstn]. destruct i; [reflexivity|]. cbn [nth]. apply IH. lia. Qed.
(** a callee-saved register which is not pushed is not assigned to a reference *)
Lemma unpushed i r : callee_saved r -> ~ In r (pushedRegs nd) -> spill nd = false /\ ((i < nd)%nat -> pr i <> r).
Proof.
  pose proof nd6 as N6. unfold pushedRegs, spill. cbn [length availableRegs pushableRegs Nat.add]. destruct (Nat.ltb_spec 11 nd) as [L|L]; intros C H.
  - exfalso. apply H. unfold callee_saved in C. cbn in *. intuition.
  - split; [reflexivity|]. intros Hi E. apply H. clear H. subst r. assert (Hi11 : (i < 11)%nat) by lia. revert C Hi. generalize nd as d. intros d C Hi.
    assert (i5 : (5 <= i)%nat). { destruct (le_lt_dec 5 i) as [G|G]; [exact G|]. exfalso. unfold callee_saved in C. do 5 (destruct i as [|i]; [cbn in C; intuition discriminate|]). lia. }
    unfold pr. rewrite app_nth2 by (cbn; lia). cbn [length availableRegs]. rewrite <- (nth_firstn_in RAX pushableRegs (d - 5) (i - 5)%nat) by lia. apply nth_In. rewrite firstn_length. cbn [length pushableRegs]. lia.
Qed.

(** *** registers the code does not name *)
Definition absent (r : reg) (i : instr) : Prop := match i with I _ ops => ~ In (OReg r) ops | Push _ | Pop _ => False | _ => True end.
Lemma wrs_absent r m0 ops : forall vs m, ~ In (OReg r) ops -> regs (wrs lay m0 m ops vs) r = regs m r.
Proof.
  induction ops as [|o ops IH]; intros vs m H; [reflexivity|]. destruct vs as [|v vs]; [reflexivity|]. cbn [wrs]. cbn [In] in H. specialize (IH vs m ltac:(tauto)).
  destruct v as [v|]; [|exact IH]. destruct o as [x| |]; cbn [wr setr setm regs]; [|exact IH|exact IH]. rewrite rupd_neq; [exact IH|]. intros E. apply H. left. congruence.
Qed.
Lemma run_absent r code : forall c sk c' sk', Forall (absent r) code -> run lay code (c, sk) = Some (c', sk') -> regs c' r = regs c r.
Proof.
  induction code as [|i code IH]; intros c sk c' sk' H E; [injection E as <- <-; reflexivity|]. inversion H as [|? ? H1 H2]; subst. cbn [run] in E.
  destruct (step lay i (c, sk)) as [[c1 sk1]|] eqn:E1; [|discriminate]. rewrite (IH _ _ _ _ H2 E). clear E. destruct sk as [l|].
  - destruct i; cbn in E1; injection E1 as <- <-; reflexivity.
  - destruct i as [nm ops| | | | | |]; cbn [absent] in H1; try tauto; cbn in E1; try (injection E1 as <- <-; reflexivity).
    destruct (exec lay nm ops c) as [c2|] eqn:Ex; [|discriminate]. injection E1 as <- <-. unfold exec in Ex. destruct (negb _); [discriminate|]. destruct (rds _ _ _) as [l|]; [|discriminate]. destruct (sem _ _ _ _) as [[vs f]|]; [|discriminate]. injection Ex as <-. cbn [setf regs]. apply wrs_absent, H1.
Qed.
Section Absent.
Variable r : reg.
Hypothesis Hr : callee_saved r.
Hypothesis Hp : ~ In r (pushedRegs nd).
Lemma no_spill : spill nd = false. Proof. apply (unpushed 0 r Hr Hp). Qed.
Definition A0 : alloc := {| needed := nd; nUsed := nd; avail := []; assign := [] |}.
Lemma regRef_absent k : regRef A0 k <> OReg r.
Proof.
  replace A0 with (alloc_of nd None) by (unfold alloc_of; rewrite no_spill; reflexivity). rewrite (regRef_dir nd nd6). unfold dir, nu. rewrite no_spill.
  destruct (Nat.ltb_spec k nd) as [L|L]; [|discriminate]. intros E. injection E as E. exact (proj2 (unpushed k r Hr Hp) L E).
Qed.
Definition noarg (x : arg) : Prop := x <> AR r.
Definition nocmd (c : cmd) : Prop := match c with Op _ args => Forall noarg args | _ => True end.
Lemma params_absent ld ms : forall args a c l, Forall noarg args -> params A0 ld ms args = Some (a, c, l) -> a = A0 /\ c = [] /\ ~ In (OReg r) l.
Proof.
  assert (D : forall o ms args a c l, o <> OReg r -> (forall a c l, params A0 ld ms args = Some (a, c, l) -> a = A0 /\ c = [] /\ ~ In (OReg r) l) ->
    match params A0 ld ms args with Some (a, c, l) => Some (a, c, o :: l) | None => None end = Some (a, c, l) -> a = A0 /\ c = [] /\ ~ In (OReg r) l).
  { intros o ms' args a c l Ho IH E. destruct (params A0 ld ms' args) as [[[a1 c1] l1]|]; [|discriminate]. injection E as <- <- <-. destruct (IH _ _ _ eq_refl) as (-> & -> & N). split; [reflexivity|]. split; [reflexivity|]. cbn [In]. tauto. }
  induction ms as [|m ms IH]; intros args a c l H E; cbn [params] in E; [injection E as <- <- <-; cbn; tauto|].
  destruct args as [|x args]; [injection E as <- <- <-; cbn; tauto|]. inversion H as [|? ? H1 H2]; subst. destruct x as [k|x|b off].
  - destruct (k <? nUsed A0)%nat.
    + apply (D _ _ _ _ _ _ (regRef_absent k) (fun a c l => IH args a c l H2) E).
    + destruct (match ld with Some k' => (k =? k')%nat | None => false end); [cbn in E; discriminate|]. apply (D _ _ _ _ _ _ (regRef_absent k) (fun a c l => IH args a c l H2) E).
  - apply (D (OReg x) ms args a c l); [|exact (fun a c l => IH args a c l H2)|exact E]. intros E'. apply H1. congruence.
  - apply (D (OMem b off) ms args a c l); [discriminate|exact (fun a c l => IH args a c l H2)|exact E].
Qed.
Lemma emit1_absent c a l : nocmd c -> emit1 A0 c = Some (a, l) -> a = A0 /\ Forall (absent r) l.
Proof.
  intros H E. destruct c as [i args|cc lb|rm|lb]; cbn [emit1] in E.
  - unfold op in E. destruct (negb _); [discriminate|]. destruct (choose _ _ _ _ _ _) as [[u d]|]; [|discriminate]. set (ld := match d with Some _ => _ | None => None end) in E.
    destruct (params A0 ld (modes i) args) as [[[a1 c1] l1]|] eqn:Ep; [|discriminate]. injection E as <- <-. destruct (params_absent ld _ _ _ _ _ H Ep) as (-> & -> & N). split; [reflexivity|]. cbn [app]. constructor; [exact N|constructor].
  - injection E as <- <-. split; [reflexivity|]. constructor; [exact Logic.I|constructor].
  - destruct rm; cbn in E; injection E as <- <-; (split; [reflexivity|constructor]).
  - cbn in E. injection E as <- <-. split; [reflexivity|]. constructor; [exact Logic.I|constructor].
Qed.
Lemma emit_absent cs : forall a l, Forall nocmd cs -> emit A0 cs = Some (a, l) -> Forall (absent r) l.
Proof.
  induction cs as [|c cs IH]; intros a l H E; cbn [emit] in E; [injection E as <- <-; constructor|]. inversion H as [|? ? H1 H2]; subst.
  destruct (emit1 A0 c) as [[a1 l1]|] eqn:E1; [|discriminate]. destruct (emit1_absent _ _ _ H1 E1) as [-> N]. destruct (emit A0 cs) as [[a2 l2]|] eqn:E2; [|discriminate]. injection E as <- <-. apply Forall_app. split; [exact N|]. exact (IH _ _ H2 eq_refl).
Qed.
Lemma Forall_flat_map {X} (P : cmd -> Prop) (f : X -> list cmd) l : (forall x, Forall P (f x)) -> Forall P (flat_map f l).
Proof. intros H. induction l as [|x l IH]; [constructor|]. cbn [flat_map]. apply Forall_app. split; [apply H|exact IH]. Qed.
Lemma Forall_map_all {X} (P : cmd -> Prop) (f : X -> cmd) l : (forall x, P (f x)) -> Forall P (map f l).
Proof. intros H. induction l as [|x l IH]; [constructor|]. cbn [map]. constructor; [apply H|exact IH]. Qed.
Ltac nc := repeat lazymatch goal with
  | |- Forall nocmd (_ ++ _) => apply Forall_app; split
  | |- Forall nocmd (flat_map _ _) => apply Forall_flat_map; intro
  | |- Forall nocmd (map _ _) => apply Forall_map_all; intro
  | |- Forall nocmd (if ?b then _ else _) => destruct b
  | |- Forall nocmd [] => constructor
  | |- Forall nocmd (_ :: _) => constructor
  | |- nocmd (if ?b then _ else _) => destruct b
  | |- nocmd (Op _ _) => unfold nocmd
  | |- nocmd _ => exact Logic.I
  | |- Forall noarg [] => constructor
  | |- Forall noarg (_ :: _) => constructor
  | |- noarg (AV _) => discriminate
  | |- noarg (AM _ _) => discriminate
  | |- noarg (AR _) => let E := fresh in intros E; injection E as E; clear - E Hr; unfold callee_saved in Hr; cbn in Hr; intuition congruence
  | |- noarg (?f _) => unfold f
  | H : forall _, Forall nocmd (?u _) |- Forall nocmd (?u _) => apply H
  end.
Lemma template_nocmd upper : (forall i, Forall nocmd (upper i)) -> Forall nocmd (template n opt upper).
Proof using Hr. clear Hp. intros H. unfold template, secondLoop, tailCode. nc. Qed.
Lemma firstRow_nocmd f b : noarg f -> (forall j, noarg (b j)) -> Forall nocmd (firstRow n opt f b).
Proof using Hr. clear Hp. intros Hf Hb. unfold firstRow. nc; auto. Qed.
Lemma clearTop_nocmd : Forall nocmd (clearTop n opt).
Proof using Hr. clear Hp. unfold clearTop. nc. Qed.
Lemma nextRow_nocmd b : (forall j, noarg (b j)) -> Forall nocmd (nextRow n opt b).
Proof using Hr. clear Hp. intros Hb. unfold nextRow, clearTop. nc; auto. Qed.
Lemma mul_nocmd i : Forall nocmd (mulUpper n opt i).
Proof using Hr. clear Hp. unfold mulUpper. apply Forall_app. split; [nc|]. destruct (Nat.eqb i 0); [apply firstRow_nocmd|apply nextRow_nocmd]; try intro; discriminate. Qed.
Lemma square_nocmd i : Forall nocmd (squareUpper n opt i).
Proof using Hr. clear Hp. unfold squareUpper. apply Forall_app. split; [nc|]. destruct (Nat.eqb i 0); [apply firstRow_nocmd; [nc|intro; discriminate]|apply nextRow_nocmd; intro; discriminate]. Qed.
Lemma mul1_nocmd i : Forall nocmd (mul1Upper n opt i).
Proof using Hr. clear Hp. unfold mul1Upper. destruct (Nat.eqb i 0); [|apply clearTop_nocmd]. apply Forall_app. split; [nc|]. apply firstRow_nocmd; try intro; discriminate. Qed.
Lemma from_nocmd i : Forall nocmd (fromUpper n opt i).
Proof using Hr. clear Hp. unfold fromUpper. destruct (Nat.eqb i 0); [nc|apply clearTop_nocmd]. Qed.
End Absent.

(** *** composition *)
(** the effect of a call: [l] is stored at [p], the other words outside the used
    stack and the kept registers are unchanged, the return address is popped *)
Definition returned (p : Z) (l : list Z) (m m' : mach) : Prop :=
  (forall j, (j < length l)%nat -> mem m' (p + 8 * Z.of_nat j) = nth j l 0) /\
  (forall x, (forall j, (j < length l)%nat -> x <> p + 8 * Z.of_nat j) -> ~ (regs m RSP - stackBytes n opt <= x < regs m RSP) -> mem m' x = mem m x) /\
  (forall r, kept r -> regs m' r = regs m r) /\ regs m' RSP = (regs m RSP + 8) mod B.
Variable upper : nat -> list cmd.
Hypothesis Hno : forall r i, callee_saved r -> Forall (nocmd r) (upper i).
Hypothesis Hsim : forall F okaddr, F mod 8 = 0 -> 0 <= F -> F + 8 * Z.of_nat (nd - nu nd) <= B -> (forall x, okaddr x = true -> ~ frame nd F x) ->
  exists k', SIM lay nd F okaddr None (template n opt upper) k'.
Variable m : mach.
Hypothesis Hm : words m.
Hypothesis Hst : stack_ok n opt m.
Notation F := (regs m RSP - stackBytes n opt).
Definition clr (x : Z) : bool := (x <? F) || (regs m RSP + 8 <=? x).
Lemma clr_spec x : clr x = true <-> x < F \/ regs m RSP + 8 <= x.
Proof. unfold clr. rewrite orb_true_iff, Z.ltb_lt, Z.leb_le. tauto. Qed.
Lemma stackBytes_split : stackBytes n opt = 8 * Z.of_nat (length (pushedRegs nd)) + 8 * Z.of_nat (nd - nu nd).
Proof. unfold stackBytes. cbv zeta. rewrite nused. lia. Qed.
Lemma mod8 a k : a mod 8 = 0 -> (a - 8 * k) mod 8 = 0.
Proof. intros H. replace (a - 8 * k) with (a + (- k) * 8) by lia. rewrite Z.mod_add by lia. exact H. Qed.
Lemma F8 : F mod 8 = 0.
Proof. rewrite stackBytes_split, <- Z.mul_add_distr_l. apply mod8, Hst. Qed.
Lemma header_run : exists c, run lay (header nd) (m, None) = Some (c, None) /\ (forall r, r <> RSP -> regs c r = regs m r) /\ regs c RSP = F /\
  (forall i, (i < length (pushedRegs nd))%nat -> mem c (F + 8 * Z.of_nat (nd - nu nd) + 8 * Z.of_nat i) = regs m (nth i (pushedRegs nd) RAX)) /\
  (forall x, x < F \/ regs m RSP <= x -> mem c x = mem m x) /\ words c.
Proof.
  destruct Hst as (S1 & S2 & S3). pose proof stackBytes_split as SB.
  destruct (push_run (pushedRegs nd) m pushed_RSP S1 ltac:(lia)) as (c1 & E1 & R1 & P1 & M1 & O1 & W1). specialize (W1 Hm).
  unfold header. cbv zeta. rewrite run_app, E1, nused. destruct (Nat.ltb_spec (nu nd) nd) as [L|L].
  - pose proof (proj1 Hm RSP). destruct (sub_rsp c1 (Z.of_nat (nd - nu nd) * 8)) as [f Ef]; [lia|lia|]. rewrite Ef. eexists. split; [reflexivity|]. cbn [setf setr regs mem]. rewrite rupd_eq.
    split; [intros r N; rewrite rupd_neq by exact N; apply R1, N|]. split; [lia|]. split; [intros i Hi; rewrite <- M1 by exact Hi; f_equal; lia|]. split; [intros x Hx; apply O1; lia|].
    split; cbn [setf setr regs mem]; [|apply W1]. intros r. unfold rupd. destruct (reg_eqb r RSP); [lia|apply W1].
  - cbn [run]. exists c1. split; [reflexivity|]. assert (nd - nu nd = 0)%nat by lia. split; [exact R1|]. split; [lia|]. split; [intros i Hi; rewrite <- M1 by exact Hi; f_equal; lia|]. split; [intros x Hx; apply O1; lia|exact W1].
Qed.
Lemma footer_run c : regs c RSP = F -> (forall i, (i < length (pushedRegs nd))%nat -> mem c (F + 8 * Z.of_nat (nd - nu nd) + 8 * Z.of_nat i) = regs m (nth i (pushedRegs nd) RAX)) ->
  exists c', run lay (footer nd) (c, None) = Some (c', None) /\ regs c' RSP = regs m RSP /\ mem c' = mem c /\ (forall r, In r (pushedRegs nd) -> regs c' r = regs m r) /\
   (forall r, r <> RSP -> ~ In r (pushedRegs nd) -> regs c' r = regs c r).
Proof.
  intros EF EM. destruct Hst as (S1 & S2 & S3). pose proof stackBytes_split as SB. pose proof F8 as F8. set (Fp := F + 8 * Z.of_nat (nd - nu nd)) in *.
  assert (P : forall c1, regs c1 RSP = Fp -> mem c1 = mem c -> (forall r, r <> RSP -> regs c1 r = regs c r) -> exists c', run lay (map Pop (pushedRegs nd)) (c1, None) = Some (c', None) /\ regs c' RSP = regs m RSP /\ mem c' = mem c /\ (forall r, In r (pushedRegs nd) -> regs c' r = regs m r) /\
   (forall r, r <> RSP -> ~ In r (pushedRegs nd) -> regs c' r = regs c r)).
  { intros c1 E1 Em Er. destruct (pop_run (pushedRegs nd) c1 pushed_RSP pushed_NoDup) as (c2 & E2 & R2 & P2 & M2 & O2).
    - rewrite E1. unfold Fp. replace (F + 8 * Z.of_nat (nd - nu nd)) with (F - 8 * (- Z.of_nat (nd - nu nd))) by lia. apply mod8, F8.
    - unfold Fp in E1. lia.
    - unfold Fp in E1. lia.
    - exists c2. split; [exact E2|]. split; [unfold Fp in E1; lia|]. split; [congruence|]. split.
      + intros r Hr. destruct (In_nth _ _ RAX Hr) as (i & Hi & <-). rewrite M2 by exact Hi. rewrite E1, Em. apply EM, Hi.
      + intros r N1 N2. rewrite R2 by assumption. apply Er, N1. }
  unfold footer. cbv zeta. rewrite nused. destruct (Nat.ltb_spec (nu nd) nd) as [L|L].
  - destruct (add_rsp c (Z.of_nat (nd - nu nd) * 8)) as [f Ef]; [lia|lia|lia|]. rewrite run_app, Ef. apply P.
    + cbn [setf setr regs]. rewrite rupd_eq. unfold Fp. lia.
    + reflexivity.
    + intros r N. cbn [setf setr regs]. apply rupd_neq, N.
  - cbn [app]. apply P; [unfold Fp; lia|reflexivity|reflexivity].
Qed.
Variable q p X : Z.
Hypothesis Hdest : forall j, (j < n)%nat -> clr (p + 8 * Z.of_nat j) = true.
Hypothesis Hvm : forall c v, vok v -> words c -> (forall r, r <> RSP -> regs c r = regs m r) -> (forall x, clr x = true -> mem c x = mem m x) ->
  wp lay clr (template n opt upper) (fun _ m' => post n q c p X m') v c.
Lemma routine_call : exists code, routine n opt upper = Some code /\
  exists m' l, call lay code m = Some m' /\ limbs_ok n l /\ eval l < q /\ (eval l * B ^ Z.of_nat n) mod q = X mod q /\ returned p l m m'.
Proof.
  destruct Hst as (S1 & S2 & S3). pose proof stackBytes_split as SB. pose proof F8 as F8.
  destruct header_run as (c & Eh & Rh & Ph & Mh & Oh & Wh).
  destruct (Hsim F clr) as (k' & code & Ee & Es); [exact F8|lia|lia|intros x Hx; apply clr_spec in Hx; unfold frame; lia|].
  unfold routine. rewrite alloc_new, Ee. eexists. split; [reflexivity|].
  set (v := fun i => if (i <? nu nd)%nat then regs c (pr i) else mem c (fr nd F i)).
  assert (Hv : vok v) by (intros i; unfold v; destruct (i <? nu nd)%nat; apply Wh).
  assert (Hout : forall x, clr x = true -> mem c x = mem m x) by (intros x Hx; apply clr_spec in Hx; apply Oh; lia).
  destruct (Hvm c v Hv Wh Rh Hout) as (v' & m' & Ev & Hreg & l & L1 & L2 & L3 & L4 & L5).
  assert (R0 : Rel nd F None v c c).
  { constructor; [reflexivity|reflexivity|exact Ph| | | |reflexivity].
    - intros i Hi. unfold v. apply Nat.ltb_lt in Hi. rewrite Hi. reflexivity.
    - exact Logic.I.
    - intros i Hi _. unfold v. destruct (Nat.ltb_spec i (nu nd)); [lia|reflexivity]. }
  destruct (Es v c None c v' m' None R0 Ev) as (c' & Ec & R'). cbn [RelS] in R'.
  pose proof (proj1 L1) as Ll. rewrite Ll in L4, L5.
  assert (Hc' : forall x, ~ frame nd F x -> mem c' x = mem m' x) by apply (r_out _ _ _ _ _ _ R').
  assert (Hst' : forall x, F + 8 * Z.of_nat (nd - nu nd) <= x < regs m RSP + 8 -> mem c' x = mem c x).
  { intros x Hx. rewrite Hc' by (unfold frame; lia). apply L5. intros j Hj E. specialize (Hdest j Hj). apply clr_spec in Hdest. lia. }
  destruct (footer_run c') as (c2 & E2 & P2 & M2 & R2 & O2); [apply (r_rsp _ _ _ _ _ _ R')|intros i Hi; rewrite Hst' by lia; apply Mh, Hi|].
  assert (Hret : mem c2 (regs m RSP) = mem m (regs m RSP)) by (rewrite M2, Hst' by lia; apply Oh; lia).
  exists (setr c2 RSP ((regs m RSP + 8) mod B)), l. split; [|split; [exact L1|split; [exact L2|split; [exact L3|]]]].
  - unfold call. rewrite run_app, Eh, run_app, Ec, E2, P2, Hret, !Z.eqb_refl. reflexivity.
  - unfold returned. rewrite Ll. cbn [setr regs mem]. rewrite M2. split; [|split; [|split]].
    + intros j Hj. rewrite Hc'; [apply L4, Hj|]. specialize (Hdest j Hj). apply clr_spec in Hdest. unfold frame. lia.
    + intros x Hx Hs. rewrite Hc' by (unfold frame; lia). rewrite L5 by exact Hx. apply Oh. lia.
    + intros r Hr. assert (Nsp : r <> RSP) by (intros ->; unfold kept, callee_saved in Hr; cbn in Hr; intuition discriminate). rewrite rupd_neq by exact Nsp.
      destruct (in_dec reg_dec r (pushedRegs nd)) as [D|D]; [apply R2, D|]. rewrite O2 by assumption. destruct Hr as [Hr|Hr].
      * rewrite <- (Rh r Nsp). eapply run_absent; [|exact Ec]. eapply (emit_absent r Hr D); [apply (template_nocmd r Hr); exact (fun i => Hno r i Hr)|].
        replace (alloc_of nd None) with (A0) in Ee by (unfold alloc_of; rewrite (no_spill r Hr D); reflexivity). exact Ee.
      * rewrite (r_named _ _ _ _ _ _ R') by (unfold named; tauto). rewrite Hreg by (destruct Hr; subst; discriminate). apply Rh, Nsp.
    + apply rupd_eq.
Qed.
End Call.
