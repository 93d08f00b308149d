(** The invariant of ThreadWorker and its consequences. *)
From Coq Require Import List Bool Arith Lia.
From Verif Require Import Worker.
Import ListNotations.

Definition w_holds (p : wpc) : bool := match p with WCheck | WBlock | WGo | WExit | WRun | WRan | WUnlock => true | _ => false end.
Definition c_holds (p : cpc) : bool := match p with CSubSet _ | CSubUnlock | CWCheck | CWBlock | CWUnlock => true | _ => false end.
Definition owner (s : st) : Prop := own s = if w_holds (wp s) then Some Wk else if c_holds (cp s) then Some Cl else None.
Definition one_owner (s : st) : Prop := w_holds (wp s) = true -> c_holds (cp s) = true -> False.
Definition stopped (p : cpc) : bool := match p with CDNotify | CDJoin | CDone => true | _ => false end.
(** the worker's position, the task and stop *)
Definition w_ok (s : st) : Prop :=
  match wp s with
  | WBlock => task s = None
  | WWait => task s <> None -> cp s = CSubUnlock \/ cp s = CSubNotify
  | WGo => task s <> None \/ stop s = true
  | WRun | WRan => task s <> None
  | WExit | WEnd => stop s = true
  | WUnlock => task s = None
  | _ => True
  end.
(** the client's position *)
Definition c_ok (s : st) : Prop :=
  match cp s with
  | CIdle => alternates true (ops s) \/ (alternates false (ops s) /\ task s = None)
  | CSubUnlock => alternates true (ops s) /\ task s <> None
  | CSubNotify => alternates true (ops s)
  | CSubLock _ | CSubSet _ => alternates true (ops s) /\ task s = None
  | CWLock | CWCheck | CWWoken => alternates false (ops s)
  | CWBlock => alternates false (ops s) /\ task s <> None
  | CWWait => alternates false (ops s) /\ (task s = None -> wp s = WUnlock \/ wp s = WNotify)
  | CWUnlock => alternates false (ops s) /\ task s = None
  | CDStop | CDNotify | CDJoin | CDone => ops s = [] /\ task s = None
  end.
Definition w_todo (s : st) : list event := match task s with Some t => match wp s with WRan => [Finished t] | _ => [Started t; Finished t] end | None => [] end.
Definition c_todo (s : st) : list event :=
  match cp s with CSubLock t | CSubSet t => [Submitted t; Started t; Finished t] | CWLock | CWCheck | CWBlock | CWWait | CWWoken | CWUnlock => [Waited] | _ => [] end ++ expected (ops s).
Record inv (prog : list op) (s : st) : Prop := {
  i_owner : owner s; i_one : one_owner s; i_stop : stop s = stopped (cp s); i_w : w_ok s; i_c : c_ok s;
  i_log : log s ++ w_todo s ++ c_todo s = expected prog }.

Lemma inv_init prog : alternates false prog -> inv prog (init prog).
Proof. intros H. constructor; cbn; try reflexivity; try discriminate; auto. Qed.
Lemma inv_step prog s s' : inv prog s -> step s s' -> inv prog s'.
Proof.
  intros [O U S W C L] H. destruct s as [stp tsk ow w c o lg]. unfold owner, one_owner, w_ok, c_ok, w_todo, c_todo in *. cbn [stop task own wp cp ops log] in *.
  destruct H as [H|H].
  - unfold wstep in H. cbn [stop task own wp cp ops log] in H.
    destruct w; try discriminate H;
      repeat match type of H with context [match ?x with _ => _ end] => destruct x eqn:?; try discriminate H end;
      injection H as <-; constructor; unfold owner, one_owner, w_ok, c_ok, w_todo, c_todo, set_w, set_c;
      cbn [stop task own wp cp ops log w_holds] in *; try assumption; try congruence;
      destruct c; cbn [c_holds stopped notify_c] in *; try congruence; try tauto; try (intros; congruence); try (rewrite <- L, <- ?app_assoc; reflexivity); intuition congruence.
  - unfold cstep in H. cbn [stop task own wp cp ops log] in H.
    destruct c; try discriminate H;
      repeat match type of H with context [match ?x with _ => _ end] => destruct x eqn:?; try discriminate H end;
      injection H as <-; constructor; unfold owner, one_owner, w_ok, c_ok, w_todo, c_todo, set_w, set_c;
      cbn [stop task own wp cp ops log c_holds] in *; try assumption; try congruence;
      destruct w; cbn [w_holds stopped notify_w alternates expected flat_map app] in *; try congruence; try tauto; try (intros; congruence); try (rewrite <- L, <- ?app_assoc; reflexivity); try solve [intuition congruence];
      destruct C as [_ ->]; rewrite <- L, <- app_assoc; reflexivity.
Qed.
Lemma inv_spurious prog s s' : inv prog s -> spurious s s' -> inv prog s'.
Proof.
  intros [O U S W C L] H. destruct s as [stp tsk ow w c o lg]. unfold spurious, owner, one_owner, w_ok, c_ok, w_todo, c_todo in *. cbn [stop task own wp cp ops log] in *.
  destruct H as [[-> ->]|[-> ->]]; constructor; unfold owner, one_owner, w_ok, c_ok, w_todo, c_todo, set_w, set_c; cbn [stop task own wp cp ops log w_holds c_holds stopped] in *; try assumption; try discriminate; try tauto.
  - destruct c; try assumption. split; [apply C|]. intros T. destruct C as [_ C]. destruct (C T); discriminate.
  - destruct w; try assumption. intros T. destruct (W T); discriminate.
Qed.
Lemma inv_reach prog s : alternates false prog -> reach prog s -> inv prog s.
Proof. intros A. induction 1 as [|s s' _ IH H|s s' _ IH H]; [apply inv_init, A|eapply inv_step; eassumption|eapply inv_spurious; eassumption]. Qed.

(** ** progress *)
(** the only state in which neither thread can move before the end *)
Definition missed (s : st) : Prop := cp s = CDJoin /\ wp s = WWait.
Lemma progress prog s : inv prog s -> client_done s \/ missed s \/ exists s', step s s'.
Proof.
  intros [O U S W C L]. destruct s as [stp tsk ow w c o lg]. unfold client_done, missed, step, owner, one_owner, w_ok, c_ok, w_todo, c_todo in *. cbn [stop task own wp cp ops log] in *.
  destruct w; try (right; right; eexists; left; reflexivity).
  - (* WLock *) destruct ow as [[|]|]; [|right; right|right; right; eexists; left; reflexivity].
    + destruct c; discriminate.
    + destruct c; try discriminate; eexists; right; reflexivity.
  - (* WWait *) destruct c; cbn [c_holds w_holds] in O; rewrite O; try (right; right; eexists; right; reflexivity).
    + destruct o as [|x o]; [left; left; auto|]. right. right. eexists. right. reflexivity.
    + exfalso. destruct C as [_ C]. destruct tsk as [t|]; [destruct (W ltac:(discriminate)); discriminate|destruct (C eq_refl); discriminate].
    + right. left. auto.
    + left. right. reflexivity.
  - (* WWoken *) destruct ow as [[|]|]; [|right; right|right; right; eexists; left; reflexivity].
    + destruct c; discriminate.
    + destruct c; try discriminate; eexists; right; reflexivity.
  - (* WEnd *) destruct c; cbn [stopped] in S; try congruence; try (right; right; eexists; right; reflexivity). left. right. reflexivity.
  - (* WRun *) destruct tsk as [t|]; [|destruct (W eq_refl)]. right. right. eexists. left. reflexivity.
  - (* WRan *) destruct tsk as [t|]; [|destruct (W eq_refl)]. right. right. eexists. left. reflexivity.
Qed.
(** ** termination *)
Definition w_rank (p : wpc) : nat :=
  match p with WWait => 0 | WBlock => 1 | WCheck => 4 | WLock | WWoken => 5 | WGo => 3 | WExit => 2 | WEnd => 0 | WRun => 2 | WRan => 1 | WUnlock => 10 | WNotify => 9 end.
Definition c_rank (p : cpc) : nat :=
  match p with CIdle => 0 | CSubLock _ => 21 | CSubSet _ => 20 | CSubUnlock => 7 | CSubNotify => 6 | CWLock | CWWoken => 5 | CWCheck => 4 | CWBlock => 3 | CWWait => 2 | CWUnlock => 1
  | CDStop => 8 | CDNotify => 7 | CDJoin => 1 | CDone => 0 end.
Definition op_rank (o : op) : nat := match o with Submit _ => 22 | Wait => 6 | Destroy => 9 end.
Fixpoint ops_rank (l : list op) : nat := match l with [] => 0 | o :: l => op_rank o + ops_rank l end.
Definition rank (s : st) : nat := w_rank (wp s) + c_rank (cp s) + (match task s with Some _ => 12 | None => 0 end) + ops_rank (ops s).
Lemma step_rank s s' : step s s' -> rank s' < rank s.
Proof.
  intros H. destruct s as [stp tsk ow w c o lg]. unfold step, wstep, cstep, rank in *. cbn [stop task own wp cp ops log] in *. destruct H as [H|H].
  - destruct w; try discriminate H;
      repeat match type of H with context [match ?x with _ => _ end] => destruct x eqn:?; try discriminate H end;
      injection H as <-; cbn [stop task own wp cp ops log set_w set_c w_rank c_rank]; try lia.
    destruct c; cbn [notify_c c_rank]; lia.
  - destruct c; try discriminate H;
      repeat match type of H with context [match ?x with _ => _ end] => destruct x eqn:?; try discriminate H end;
      injection H as <-; cbn [stop task own wp cp ops log set_w set_c w_rank c_rank ops_rank op_rank]; try lia;
      destruct w; cbn [notify_w w_rank]; destruct tsk; lia.
Qed.
Lemma steps_rank n s s' : steps n s s' -> n + rank s' <= rank s.
Proof. induction 1 as [|n s s1 s' H _ IH]; [lia|]. apply step_rank in H. lia. Qed.
Lemma steps_reach prog n s s' : steps n s s' -> reach prog s -> reach prog s'.
Proof. induction 1 as [|n s s1 s' H _ IH]; intros R; [exact R|]. apply IH. eapply reach_step; eassumption. Qed.

(** after [stop] has been set while the worker was not about to block, it is not
    missed: the worker never waits once the notification has been sent *)
Definition heard (s : st) : Prop := match cp s with
  | CDNotify => wp s <> WBlock
  | CDJoin | CDone => wp s <> WBlock /\ wp s <> WWait
  | _ => False end.
Lemma heard_step prog s s' : inv prog s -> heard s -> step s s' \/ spurious s s' -> heard s'.
Proof.
  intros [O U S W C L] H Q. destruct s as [stp tsk ow w c o lg]. unfold heard, step, spurious, wstep, cstep, set_w, set_c in *. cbn [stop task own wp cp ops log] in *.
  destruct c; try contradiction; cbn [stopped] in S; subst stp; destruct Q as [[Q|Q]|[[-> ->]|[? ->]]]; try discriminate; cbn [stop task own wp cp ops log]; try (split; discriminate); try discriminate.
  all: try (destruct w; try discriminate Q; repeat match type of Q with context [match ?x with _ => _ end] => destruct x eqn:?; try discriminate Q end; injection Q as <-; cbn [cp wp notify_c notify_w]; repeat split; try discriminate; intuition congruence).
Qed.
