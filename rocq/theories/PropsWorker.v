(** Properties C42, C43: ThreadWorker. *)
From Coq Require Import List Bool Arith Lia.
From Verif Require Import Worker WorkerFacts.
Import ListNotations.

(** ** C42 *)
(** whatever the interleaving, the events so far are a beginning of the one
    order of the specification (submit t, start t, finish t, wait returns), and
    all of them once the client has no more calls to make *)
Theorem C42_exactly_once : forall prog s, alternates false prog -> reach prog s ->
  (exists rest, log s ++ rest = expected prog) /\ (client_done s -> log s = expected prog).
Proof.
  intros prog s A R. apply (inv_reach prog s A) in R. destruct R as [O U S W C L]. split; [eexists; exact L|].
  intros [[E1 E2]|E]; unfold c_ok, c_todo, w_todo in *.
  - rewrite E1, E2 in *. cbn in C, L. destruct C as [C|[_ C]]; [discriminate|]. rewrite C in L. cbn in L. rewrite app_nil_r in L. exact L.
  - rewrite E in *. destruct C as [C1 C2]. rewrite C1, C2 in L. cbn in L. rewrite app_nil_r in L. exact L.
Qed.
Print Assumptions C42_exactly_once.
(** no deadlock and no endless run: without the destructor, a run without
    spurious wake-ups from any reachable state has bounded length, and can only
    stop when the client is done *)
Theorem C42_progress : forall prog s, alternates false prog -> ~ In Destroy prog -> reach prog s ->
  (exists N, forall n s', steps n s s' -> n <= N) /\ ((forall s', ~ step s s') -> client_done s /\ log s = expected prog).
Proof.
  intros prog s A ND R. split; [exists (rank s); intros n s' H; apply steps_rank in H; lia|]. intros St.
  assert (I := inv_reach prog s A R). destruct (progress prog s I) as [D|[[M1 M2]|[s' H]]].
  - split; [exact D|]. apply C42_exactly_once; assumption.
  - exfalso. assert (G : forall s, reach prog s -> incl (ops s) prog /\ match cp s with CDStop | CDNotify | CDJoin | CDone => False | _ => True end).
    { clear - ND. induction 1 as [|s s' _ [IH1 IH2] H|s s' _ [IH1 IH2] H].
      - split; [apply incl_refl|exact I].
      - destruct s as [stp tsk ow w c o lg]. unfold step, wstep, cstep, set_w, set_c in H. cbn [stop task own wp cp ops log] in *. destruct H as [H|H].
        + destruct w; try discriminate H; repeat match type of H with context [match ?x with _ => _ end] => destruct x eqn:?; try discriminate H end; injection H as <-; cbn [ops cp]; split; try assumption; destruct c; try contradiction; exact I.
        + destruct c; try discriminate H; try contradiction; repeat match type of H with context [match ?x with _ => _ end] => destruct x eqn:?; try discriminate H end; injection H as <-; cbn [ops cp]; split; try assumption; try exact I; try (intros y Hy; apply IH1; right; exact Hy).
          apply ND, IH1. left. reflexivity.
      - destruct s as [stp tsk ow w c o lg]. destruct H as [[_ ->]|[E ->]]; cbn [set_w set_c ops cp] in *; split; try assumption; exact I. }
    apply G in R. rewrite M1 in R. apply R.
  - destruct (St s' H).
Qed.
Print Assumptions C42_progress.
Example C42_ex : alternates false [Submit 1; Wait; Submit 2; Wait; Wait] /\ expected [Submit 1; Wait; Submit 2; Wait; Wait] =
  [Submitted 1; Started 1; Finished 1; Waited; Submitted 2; Started 2; Finished 2; Waited; Waited].
Proof. cbn. auto. Qed.
(** runs given by their schedule: true is a step of the worker *)
Fixpoint play (sched : list bool) (s : st) : option st :=
  match sched with
  | [] => Some s
  | b :: r => match (if b then wstep s else cstep s) with Some s' => play r s' | None => None end
  end.
Lemma play_reach prog sched : forall s s', reach prog s -> play sched s = Some s' -> reach prog s'.
Proof.
  induction sched as [|b r IH]; intros s s' R H; cbn [play] in H; [injection H as <-; exact R|].
  destruct (if b then wstep s else cstep s) as [s1|] eqn:E; [|discriminate]. apply (IH s1); [|exact H]. apply (reach_step _ s); [exact R|]. destruct b; [left|right]; exact E.
Qed.
Example C42_ex_run : exists s, reach [Submit 1; Wait] s /\ client_done s /\ log s = [Submitted 1; Started 1; Finished 1; Waited].
Proof.
  eexists. split; [eapply (play_reach _ [false; false; false; false; false; true; true; true; true; true; true; false; false; false; false] _ _ (reach_init _)); vm_compute; reflexivity|].
  split; [left; split; reflexivity|reflexivity].
Qed.
(** without the wait, a second submit may replace the first task *)
Theorem C42_overwrite_refuted : exists prog s, prog = [Submit 1; Submit 2; Wait] /\ reach prog s /\ client_done s /\ log s = [Submitted 1; Submitted 2; Started 2; Finished 2; Waited].
Proof.
  eexists. eexists. split; [reflexivity|]. split; [eapply (play_reach _ ([false; false; false; false; false] ++ [false; false; false; false; false] ++ [true; true; true; true; true; true; false; false; false; false]) _ _ (reach_init _)); vm_compute; reflexivity|].
  split; [left; split; reflexivity|reflexivity].
Qed.
Print Assumptions C42_overwrite_refuted.

(** ** C43 *)
(** the notification of the destructor may come between the worker's test and
    its blocking; then neither thread ever moves again (but for a spurious
    wake-up) *)
Theorem C43_refuted : exists s, reach [Destroy] s /\ cp s = CDJoin /\ wp s = WWait /\ forall s', ~ step s s'.
Proof.
  eexists. split; [eapply (play_reach _ [true; true; false; false; false; true] _ _ (reach_init _)); vm_compute; reflexivity|]. split; [reflexivity|]. split; [reflexivity|]. intros s' [H|H]; discriminate.
Qed.
Print Assumptions C43_refuted.
(** the destructor is safe if the worker was not in that window when stop was
    set: all later runs are bounded and end with the thread joined.  [s] is the
    state right after stop = true. *)
Inductive later : st -> st -> Prop :=
| later_refl : forall s, later s s
| later_step : forall s s1 s', later s s1 -> step s1 s' \/ spurious s1 s' -> later s s'.
Theorem C43_partial : forall prog s, alternates false prog -> reach prog s -> cp s = CDNotify -> wp s <> WBlock ->
  forall s', later s s' -> (exists N, forall n s'', steps n s' s'' -> n <= N) /\ ((forall s'', ~ step s' s'') -> cp s' = CDone /\ wp s' = WEnd /\ log s' = expected prog).
Proof.
  intros prog s A R E1 E2 s' L. assert (Q : inv prog s' /\ heard s').
  { induction L as [s|s s1 s' L IH H]; [split; [apply inv_reach; assumption|unfold heard; rewrite E1; exact E2]|]. destruct (IH R E1 E2) as [I1 I2]. split; [|eapply heard_step; eassumption].
    destruct H as [H|H]; [eapply inv_step; eassumption|eapply inv_spurious; eassumption]. }
  destruct Q as [I Hd]. split; [exists (rank s'); intros n s'' H; apply steps_rank in H; lia|]. intros St.
  assert (Rl : client_done s' -> log s' = expected prog).
  { intros D. destruct I as [O U S W C L']. unfold c_ok, c_todo, w_todo in *. destruct D as [[D1 D2]|D]; [unfold heard in Hd; rewrite D1 in Hd; contradiction|]. rewrite D in *. destruct C as [C1 C2]. rewrite C1, C2 in L'. cbn in L'. rewrite app_nil_r in L'. exact L'. }
  destruct (progress prog s' I) as [D|[[M1 M2]|[s'' H]]]; [|unfold heard in Hd; rewrite M1 in Hd; destruct Hd; contradiction|destruct (St s'' H)].
  specialize (Rl D). destruct D as [[D1 D2]|D]; [unfold heard in Hd; rewrite D1 in Hd; contradiction|]. split; [exact D|]. split; [|exact Rl].
  destruct I as [O U S W C L']. unfold heard in Hd. rewrite D in Hd. clear Rl L'. destruct s' as [stp tsk ow w c o lg]. cbn [cp wp] in *. subst c. unfold step, wstep, owner in *. cbn in *.
  destruct w; try reflexivity; exfalso; try (eapply St; left; reflexivity); try (subst ow; eapply St; left; reflexivity).
  - destruct Hd as [_ Hd]. apply Hd. reflexivity.
  - destruct C as [_ C]. subst tsk. apply W. reflexivity.
  - destruct C as [_ C]. subst tsk. apply W. reflexivity.
Qed.
Print Assumptions C43_partial.
Example C43_ex : exists s, reach [Submit 1; Wait; Destroy] s /\ cp s = CDNotify /\ wp s = WWait.
Proof.
  eexists. split; [eapply (play_reach _ ([false; false; false; false; false; true; true; true; true; true; true; false; false; false; false] ++ [true; true; true; true] ++ [false; false]) _ _ (reach_init _)); vm_compute; reflexivity|]. split; reflexivity.
Qed.
