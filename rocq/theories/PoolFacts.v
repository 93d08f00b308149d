(** The thread pool: each worker sees a run of Worker.v, and the calls follow one another. *)
From Coq Require Import List Bool Arith Lia.
From Verif Require Import Worker WorkerFacts Pool.
Import ListNotations.

Definition with_ops (s : st) (l : list op) : st := {| stop := stop s; task := task s; own := own s; wp := wp s; cp := cp s; ops := l; log := log s |}.
Lemma wstep_ops s l : wstep (with_ops s l) = option_map (fun s => with_ops s l) (wstep s).
Proof. destruct s as [stp tsk ow w c o lg]. unfold wstep, with_ops. cbn [stop task own wp cp ops log]. destruct w; try reflexivity; try (destruct ow; reflexivity); try (destruct tsk; reflexivity). Qed.
Lemma cstep_ops s l : cp s <> CIdle -> cstep (with_ops s l) = option_map (fun s => with_ops s l) (cstep s).
Proof. destruct s as [stp tsk ow w c o lg]. unfold cstep, with_ops. cbn [stop task own wp cp ops log]. intros N. destruct c; try reflexivity; try congruence; try (destruct ow; reflexivity); try (destruct w; reflexivity). Qed.
Lemma enter_ops s o l : cp s = CIdle -> cstep (with_ops s (o :: l)) = Some (with_ops (enter o s) l).
Proof. destruct s as [stp tsk ow w c o' lg]. unfold cstep, with_ops, enter, set_c. cbn [stop task own wp cp ops log]. intros ->. reflexivity. Qed.
Lemma spurious_ops s s' l : spurious s s' -> spurious (with_ops s l) (with_ops s' l).
Proof. intros [[H ->]|[H ->]]; [left|right]; split; try exact H; reflexivity. Qed.
Lemma wstep_grow s s' : wstep s = Some s' -> (exists l, log s' = log s ++ l) /\ (cp s' = CIdle <-> cp s = CIdle).
Proof.
  destruct s as [stp tsk ow w c o lg]. unfold wstep, set_w. cbn [stop task own wp cp ops log]. intros H.
  destruct w; try discriminate H; try (destruct ow; try discriminate H); try (destruct tsk; try discriminate H); injection H as <-; cbn [log cp]; (split; [first [eexists; reflexivity|exists []; symmetry; apply app_nil_r]|]); try tauto; destruct c; cbn [notify_c]; split; congruence.
Qed.
Lemma cstep_grow s s' : cstep s = Some s' -> exists l, log s' = log s ++ l.
Proof.
  destruct s as [stp tsk ow w c o lg]. unfold cstep, set_c. cbn [stop task own wp cp ops log]. intros H.
  destruct c; try discriminate H; try (destruct ow; try discriminate H); try (destruct w; try discriminate H); try (destruct o; try discriminate H); injection H as <-; cbn [log]; first [eexists; reflexivity|exists []; symmetry; apply app_nil_r].
Qed.
Lemma skipn_app_len {A} (a b : list A) : skipn (length a) (a ++ b) = b.
Proof. rewrite skipn_app, skipn_all, Nat.sub_diag. reflexivity. Qed.
Lemma of_app w a b : of w (a ++ b) = of w a ++ of w b.
Proof. unfold of. rewrite filter_app, map_app. reflexivity. Qed.
Lemma who_spec a b : who_eqb a b = true <-> a = b.
Proof. destruct a, b; cbn; try rewrite Nat.eqb_eq; split; congruence. Qed.
Lemma of_new k j s s' : of (Some k) (new_events j s s') = if Nat.eqb k j then skipn (length (log s)) (log s') else [].
Proof.
  unfold of, new_events. generalize (skipn (length (log s)) (log s')). induction l as [|e l IH]; cbn; [destruct (Nat.eqb k j); reflexivity|].
  rewrite (Nat.eqb_sym j k). destruct (Nat.eqb k j); cbn; rewrite IH; reflexivity.
Qed.
Lemma of_new_None j s s' : of None (new_events j s s') = [].
Proof. unfold of, new_events. induction (skipn (length (log s)) (log s')) as [|e l IH]; cbn; [reflexivity|exact IH]. Qed.
Lemma of_none_nil l : (forall w, of w l = []) -> l = [].
Proof. destruct l as [|[w e] l]; intros H; [reflexivity|]. specialize (H w). unfold of in H. cbn in H. destruct (who_eqb w w) eqn:E; [discriminate|]. assert (who_eqb w w = true) by (apply who_spec; reflexivity). congruence. Qed.
Lemma wput_same f k s : wput f k s k = s. Proof. unfold wput. rewrite Nat.eqb_refl. reflexivity. Qed.
Lemma wput_other f k s j : j <> k -> wput f k s j = f j. Proof. intros H. unfold wput. destruct (Nat.eqb_spec j k); congruence. Qed.

(** ** what one call does to one worker *)
Definition projk (k : nat) (l : list pop) : list op := flat_map (fun x => match x with On j o => if Nat.eqb j k then [o] else [] | Own _ => [] end) l.
Definition owns (l : list pop) : list event := flat_map (fun x => match x with Own t => [Started t; Finished t] | On _ _ => [] end) l.
Lemma projk_app k a b : projk k (a ++ b) = projk k a ++ projk k b. Proof. apply flat_map_app. Qed.
Lemma owns_app a b : owns (a ++ b) = owns a ++ owns b. Proof. apply flat_map_app. Qed.
Lemma proj_sub k : forall l o, projk k (map (fun kt => On (fst kt) (Submit (snd kt))) (combine (seq o (length l)) l)) = match (if Nat.ltb k o then None else nth_error l (k - o)) with Some t => [Submit t] | None => [] end.
Proof.
  induction l as [|t l IH]; intros o.
  - destruct (Nat.ltb k o); [reflexivity|]. destruct (k - o); reflexivity.
  - cbn [length seq combine map projk flat_map fst snd]. change (flat_map ?f ?l) with (projk k l). rewrite IH. destruct (Nat.ltb_spec k (S o)).
    + rewrite app_nil_r. destruct (Nat.eqb_spec o k).
      * subst. rewrite Nat.ltb_irrefl, Nat.sub_diag. reflexivity.
      * destruct (Nat.ltb_spec k o); [reflexivity|lia].
    + destruct (Nat.eqb_spec o k); [lia|]. destruct (Nat.ltb_spec k o); [lia|]. replace (k - o) with (S (k - S o)) by lia. reflexivity.
Qed.
Lemma proj_wait k n : forall o, projk k (map (fun k => On k Wait) (seq o n)) = if (Nat.leb o k && Nat.ltb k (o + n))%bool then [Wait] else [].
Proof.
  induction n as [|n IH]; intros o; cbn [seq map projk flat_map].
  - destruct (Nat.leb_spec o k), (Nat.ltb_spec k (o + 0)); cbn; try reflexivity; lia.
  - change (flat_map ?f ?l) with (projk k l). rewrite IH. destruct (Nat.eqb_spec o k), (Nat.leb_spec (S o) k), (Nat.ltb_spec k (S o + n)), (Nat.leb_spec o k), (Nat.ltb_spec k (o + S n)); cbn; try reflexivity; lia.
Qed.
Lemma removelast_len {A} (l : list A) : length (removelast l) = length l - 1.
Proof. induction l as [|x [|y l] IH]; cbn in *; [reflexivity|reflexivity|]. rewrite IH. lia. Qed.
Definition worker_job (k : nat) (jobs : list nat) : list op := match nth_error (removelast jobs) k with Some t => [Submit t; Wait] | None => [] end.
Lemma proj_call k jobs : projk k (call_ops jobs) = worker_job k jobs.
Proof.
  unfold call_ops, worker_job. rewrite !projk_app, <- removelast_len, proj_sub, proj_wait. rewrite Nat.sub_0_r. change (Nat.ltb k 0) with false. change (Nat.leb 0 k) with true. change (projk k [Own (last jobs 0)]) with (@nil op). cbn [app andb]. change (0 + length (removelast jobs)) with (length (removelast jobs)).
  destruct (nth_error (removelast jobs) k) as [t|] eqn:E.
  - assert (k < length (removelast jobs)) by (apply nth_error_Some; congruence). destruct (Nat.ltb_spec k (length (removelast jobs))); [reflexivity|lia].
  - apply nth_error_None in E. destruct (Nat.ltb_spec k (length (removelast jobs))); [lia|reflexivity].
Qed.
Lemma own_call jobs : owns (call_ops jobs) = [Started (last jobs 0); Finished (last jobs 0)].
Proof.
  unfold call_ops. rewrite !owns_app.
  assert (A : forall l, owns (map (fun kt : nat * nat => On (fst kt) (Submit (snd kt))) l) = []) by (induction l; [reflexivity|assumption]).
  assert (C : forall l, owns (map (fun k => On k Wait) l) = []) by (induction l; [reflexivity|assumption]).
  rewrite A, C. reflexivity.
Qed.
Lemma call_ops_ne jobs : call_ops jobs <> [].
Proof. unfold call_ops. intros H. apply app_eq_nil in H. destruct H as [_ H]. discriminate. Qed.
Lemma proj_calls k calls : projk k (flat_map call_ops calls) = flat_map (worker_job k) calls.
Proof. induction calls as [|c l IH]; [reflexivity|]. cbn [flat_map]. rewrite projk_app, proj_call, IH. reflexivity. Qed.
Lemma alt_jobs k calls : alternates false (flat_map (worker_job k) calls).
Proof. induction calls as [|c l IH]; [reflexivity|]. cbn [flat_map]. unfold worker_job at 1. destruct (nth_error (removelast c) k); [|exact IH]. cbn. auto. Qed.
Lemma not_alt_jobs k calls : ~ alternates true (flat_map (worker_job k) calls).
Proof. induction calls as [|c l IH]; [discriminate|]. cbn [flat_map]. unfold worker_job at 1. destruct (nth_error (removelast c) k); [|exact IH]. cbn. intros [H _]. discriminate. Qed.

Section Pool.
Variable nw : nat.
Variable calls : list (list nat).
Notation prog := (flat_map call_ops calls).
Record Inv (p : pst) : Prop := {
  i_reach : forall k, reach (projk k prog) (with_ops (pw p k) (projk k (todo p)));
  i_at : forall k, cp (pw p k) <> CIdle <-> at_ p = At k;
  i_log : forall k, of (Some k) (plog p) = log (pw p k);
  i_own : of None (plog p) ++ (match at_ p with Busy t => [Finished t] | _ => [] end) ++ owns (todo p) = owns prog }.
(** a step extends the log, and either leaves the list of operations as it is or takes the first one *)
Definition moves (p p' : pst) : Prop := exists new, plog p' = plog p ++ new /\
  ((todo p' = todo p /\ (at_ p = Free -> at_ p' = Free)) \/ (at_ p = Free /\ at_ p' <> Free /\ exists x, todo p = x :: todo p')).

Lemma worker_case p k s at' : Inv p -> (exists l, log s = log (pw p k) ++ l) -> reach (projk k prog) (with_ops s (projk k (todo p))) ->
  (forall j, cp (wput (pw p) k s j) <> CIdle <-> at' = At j) -> (forall t, at_ p <> Busy t) -> (forall t, at' <> Busy t) ->
  Inv {| pw := wput (pw p) k s; todo := todo p; at_ := at'; plog := plog p ++ new_events k (pw p k) s |}.
Proof.
  intros [R A L O] [l G] R' A' B1 B2. constructor; cbn [pw todo at_ plog].
  - intros j. destruct (Nat.eq_dec j k) as [->|N]; [rewrite wput_same; exact R'|rewrite wput_other by exact N; apply R].
  - exact A'.
  - intros j. rewrite of_app, of_new, L. destruct (Nat.eqb_spec j k) as [->|N]; [rewrite wput_same, G, skipn_app_len; reflexivity|rewrite wput_other by exact N; apply app_nil_r].
  - rewrite of_app, of_new_None, app_nil_r, <- O. f_equal. f_equal. destruct (at_ p) eqn:E; [| |destruct (B1 t eq_refl)]; (destruct at' eqn:E'; [reflexivity|reflexivity|destruct (B2 t eq_refl)]).
Qed.
Lemma worker_busy p k s : Inv p -> (exists l, log s = log (pw p k) ++ l) -> reach (projk k prog) (with_ops s (projk k (todo p))) -> (cp s = CIdle <-> cp (pw p k) = CIdle) ->
  Inv {| pw := wput (pw p) k s; todo := todo p; at_ := at_ p; plog := plog p ++ new_events k (pw p k) s |}.
Proof.
  intros [R A L O] [l G] R' A'. constructor; cbn [pw todo at_ plog].
  - intros j. destruct (Nat.eq_dec j k) as [->|N]; [rewrite wput_same; exact R'|rewrite wput_other by exact N; apply R].
  - intros j. destruct (Nat.eq_dec j k) as [->|N]; [rewrite wput_same, A', A; reflexivity|rewrite wput_other by exact N; apply A].
  - intros j. rewrite of_app, of_new, L. destruct (Nat.eqb_spec j k) as [->|N]; [rewrite wput_same, G, skipn_app_len; reflexivity|rewrite wput_other by exact N; apply app_nil_r].
  - rewrite of_app, of_new_None, app_nil_r. exact O.
Qed.
Lemma inv_pworker p p' k : Inv p -> pworker k p = Some p' -> Inv p' /\ moves p p'.
Proof.
  intros I H. unfold pworker in H. destruct (wstep (pw p k)) as [s|] eqn:E; [|discriminate]. injection H as <-. destruct (wstep_grow _ _ E) as [G C]. split.
  - apply worker_busy; try assumption. eapply reach_step; [apply I|]. left. rewrite wstep_ops, E. reflexivity.
  - eexists. split; [reflexivity|]. left. cbn. auto.
Qed.
Lemma inv_pspurious p p' : Inv p -> pspurious nw p p' -> Inv p' /\ moves p p'.
Proof.
  intros I (k & s & _ & H & ->). assert (E : log s = log (pw p k)) by (destruct H as [[_ ->]|[_ ->]]; reflexivity).
  assert (G : new_events k (pw p k) s = []) by (unfold new_events; rewrite E, skipn_all; reflexivity). split.
  - rewrite <- (app_nil_r (plog p)), <- G. apply worker_busy; [exact I|exists []; rewrite app_nil_r; exact E|eapply reach_spurious; [apply I|apply spurious_ops, H]|].
    destruct H as [[_ ->]|[H ->]]; cbn; [tauto|rewrite H; split; discriminate].
  - exists []. rewrite app_nil_r. cbn. auto.
Qed.
Lemma inv_pclient p p' : Inv p -> pclient nw p = Some p' -> Inv p' /\ moves p p'.
Proof.
  intros I H. unfold pclient in H. destruct (at_ p) as [|k|t] eqn:Ea.
  - destruct (todo p) as [|[k o|t] r] eqn:Et; [discriminate| |].
    + destruct (Nat.ltb k nw); [|discriminate]. injection H as <-. destruct I as [R A L O]. rewrite Ea, Et in *. assert (Ci : forall j, cp (pw p j) = CIdle).
      { intros j. specialize (A j). destruct (cp (pw p j)) eqn:E; try reflexivity; exfalso; (assert (Free = At j) by (apply A; congruence)); discriminate. }
      split; [constructor; cbn [pw todo at_ plog]|].
      * intros j. specialize (R j). change (projk j (On k o :: r)) with ((if Nat.eqb k j then [o] else []) ++ projk j r) in R. destruct (Nat.eqb_spec k j) as [Ej|N]; [subst j|].
        -- rewrite wput_same. eapply reach_step; [exact R|]. right. apply enter_ops, Ci.
        -- rewrite wput_other by congruence. exact R.
      * intros j. destruct (Nat.eq_dec j k) as [->|N]; [rewrite wput_same; cbn; split; [reflexivity|destruct o; discriminate]|rewrite (wput_other _ _ _ _ N), Ci; split; congruence].
      * intros j. rewrite L. destruct (Nat.eq_dec j k) as [->|N]; [rewrite wput_same; reflexivity|rewrite wput_other by exact N; reflexivity].
      * exact O.
      * exists []. rewrite app_nil_r. cbn. split; [reflexivity|]. right. split; [exact Ea|]. split; [discriminate|]. rewrite Et. eexists. reflexivity.
    + injection H as <-. destruct I as [R A L O]. rewrite Ea, Et in *. split; [constructor; cbn [pw todo at_ plog]|].
      * intros j. exact (R j).
      * intros j. rewrite A. split; discriminate.
      * intros j. rewrite of_app, L. cbn. apply app_nil_r.
      * rewrite of_app, <- app_assoc. exact O.
      * eexists. cbn. split; [reflexivity|]. right. split; [exact Ea|]. split; [discriminate|]. rewrite Et. eexists. reflexivity.
  - destruct (cstep (pw p k)) as [s|] eqn:E; [|discriminate]. injection H as <-. assert (Nk : cp (pw p k) <> CIdle) by (apply (i_at _ I); exact Ea). split.
    + apply worker_case; [exact I|eapply cstep_grow, E|eapply reach_step; [apply I|right; rewrite cstep_ops by exact Nk; rewrite E; reflexivity]| |rewrite Ea; discriminate|unfold leave; destruct (cp s); discriminate].
      intros j. destruct (Nat.eq_dec j k) as [->|N].
      * rewrite wput_same. unfold leave. destruct (cp s); split; try congruence; discriminate.
      * rewrite wput_other by exact N. rewrite (i_at _ I), Ea. unfold leave. destruct (cp s); split; congruence.
    + eexists. cbn. split; [reflexivity|]. left. split; [reflexivity|]. rewrite Ea. discriminate.
  - injection H as <-. destruct I as [R A L O]. rewrite Ea in *. split; [constructor; cbn [pw todo at_ plog]|].
    * exact R.
    * intros j. rewrite A. split; discriminate.
    * intros j. rewrite of_app, L. cbn. apply app_nil_r.
    * rewrite of_app, <- app_assoc. exact O.
    * eexists. cbn. split; [reflexivity|]. left. auto.
Qed.
Lemma Inv_init : Inv (pinit calls).
Proof.
  constructor; cbn [pinit pw todo at_ plog].
  - intros k. apply reach_init.
  - intros k. split; [intros H; destruct H; reflexivity|discriminate].
  - reflexivity.
  - reflexivity.
Qed.
(** ** between two calls *)
Definition evs (w : option nat) (jobs : list nat) : list event :=
  match w with None => [Started (last jobs 0); Finished (last jobs 0)]
  | Some k => match nth_error (removelast jobs) k with Some t => [Submitted t; Started t; Finished t; Waited] | None => [] end end.
Lemma evs_spec jobs seg : call_events jobs seg <-> forall w, of w seg = evs w jobs.
Proof. split; [intros [H1 H2] [k|]; [apply H2|exact H1]|intros H; split; [apply (H None)|intros k; apply (H (Some k))]]. Qed.
Lemma expected_app a b : expected (a ++ b) = expected a ++ expected b. Proof. apply flat_map_app. Qed.
Lemma expected_jobs k l : expected (flat_map (worker_job k) l) = flat_map (evs (Some k)) l.
Proof. induction l as [|c l IH]; [reflexivity|]. cbn [flat_map]. rewrite expected_app, IH. f_equal. unfold worker_job, evs. destruct (nth_error (removelast c) k); reflexivity. Qed.
Lemma owns_jobs l : owns (flat_map call_ops l) = flat_map (evs None) l.
Proof. induction l as [|c l IH]; [reflexivity|]. cbn [flat_map]. rewrite owns_app, own_call, IH. reflexivity. Qed.
Lemma boundary p dn rest : Inv p -> calls = dn ++ rest -> todo p = flat_map call_ops rest -> at_ p = Free -> forall w, of w (plog p) = flat_map (evs w) dn.
Proof.
  intros [R A L O] Ec Et Ea [k|].
  - rewrite L. specialize (R k). assert (Al : alternates false (projk k prog)) by (rewrite proj_calls; apply alt_jobs). assert (Iv := inv_reach _ _ Al R). destruct Iv as [_ _ _ _ C Lg].
    assert (Ci : cp (pw p k) = CIdle). { specialize (A k). rewrite Ea in A. destruct (cp (pw p k)) eqn:E; try reflexivity; exfalso; (assert (Free = At k) by (apply A; congruence)); discriminate. }
    unfold c_ok, c_todo, w_todo in *. cbn [with_ops cp ops task log wp] in *. rewrite Ci in *. rewrite Et, proj_calls in *. destruct C as [C|[_ C]]; [destruct (not_alt_jobs _ _ C)|]. rewrite C in Lg. cbn [app] in Lg.
    rewrite proj_calls, !expected_jobs, Ec, flat_map_app in Lg. apply app_inv_tail in Lg. exact Lg.
  - rewrite Ea, Et, !owns_jobs in O. cbn [app] in O. rewrite Ec, flat_map_app in O. apply app_inv_tail in O. exact O.
Qed.
(** ** the log is cut into one piece per call *)
Definition Seg (p : pst) : Prop := exists dn rest segs cur, calls = dn ++ rest /\ Forall2 call_events dn segs /\ plog p = concat segs ++ cur /\
  ((todo p = flat_map call_ops rest /\ at_ p = Free /\ cur = []) \/
   (exists c rest' post, rest = c :: rest' /\ todo p = post ++ flat_map call_ops rest' /\ (at_ p = Free -> post <> []))).
Lemma of_segs w dn segs : Forall2 call_events dn segs -> of w (concat segs) = flat_map (evs w) dn.
Proof. induction 1 as [|c s dn segs H _ IH]; [reflexivity|]. cbn [concat flat_map]. rewrite of_app, IH. f_equal. apply evs_spec, H. Qed.
Lemma Seg_step p p' : Inv p -> Inv p' -> moves p p' -> Seg p -> Seg p'.
Proof.
  intros I I' (new & El & M) (dn & rest & segs & cur & Ec & F & Ep & [(Et & Ea & ->)|(c & rest' & post & -> & Et & Ep')]).
  - destruct M as [[M1 M2]|(M1 & M2 & x & M3)].
    + exists dn, rest, segs, []. rewrite app_nil_r in *. split; [exact Ec|]. split; [exact F|].
      assert (Z : new = []). { apply of_none_nil. intros w. assert (H := boundary p' dn rest I' Ec ltac:(congruence) (M2 Ea) w). rewrite El, Ep, of_app, (of_segs w dn segs F) in H. rewrite <- (app_nil_r (flat_map (evs w) dn)) in H at 2. apply app_inv_head in H. exact H. }
      rewrite Z, app_nil_r in El. split; [congruence|]. left. split; [congruence|]. split; [auto|reflexivity].
    + destruct rest as [|c rest']; [cbn in Et; congruence|]. exists dn, (c :: rest'), segs, new. rewrite app_nil_r in Ep. split; [exact Ec|]. split; [exact F|]. split; [congruence|]. right.
      cbn [flat_map] in Et. rewrite M3 in Et. destruct (call_ops c) as [|y post] eqn:E; [destruct (call_ops_ne c E)|]. injection Et as _ Et. exists c, rest', post. split; [reflexivity|]. split; [exact Et|]. intros H. destruct (M2 H).
  - assert (Et' : exists post', todo p' = post' ++ flat_map call_ops rest').
    { destruct M as [[M1 M2]|(M1 & M2 & x & M3)]; [exists post; congruence|]. rewrite M3 in Et. destruct post as [|y post]; [destruct (Ep' M1 eq_refl)|]. injection Et as _ Et. exists post. exact Et. }
    destruct Et' as [post' Et']. assert (D : (at_ p' = Free /\ post' = []) \/ (at_ p' = Free -> post' <> [])).
    { destruct post'; [|right; discriminate]. destruct (at_ p') eqn:E; [left; auto|right; discriminate|right; discriminate]. }
    destruct D as [[D1 ->]|D].
    + exists (dn ++ [c]), rest', (segs ++ [cur ++ new]), []. assert (Ec' : calls = (dn ++ [c]) ++ rest') by (rewrite <- app_assoc; exact Ec). split; [exact Ec'|].
      assert (Q : call_events c (cur ++ new)).
      { apply evs_spec. intros w. assert (H := boundary p' (dn ++ [c]) rest' I' Ec' Et' D1 w). rewrite El, Ep, <- app_assoc, of_app, (of_segs w dn segs F), flat_map_app in H. apply app_inv_head in H. cbn in H. rewrite app_nil_r in H. exact H. }
      split; [apply Forall2_app; [exact F|constructor; [exact Q|constructor]]|]. split; [|left; auto]. rewrite concat_app, app_nil_r. cbn [concat]. rewrite app_nil_r, El, Ep, app_assoc. reflexivity.
    + exists dn, (c :: rest'), segs, (cur ++ new). split; [exact Ec|]. split; [exact F|]. split; [rewrite El, Ep, app_assoc; reflexivity|]. right. exists c, rest', post'. auto.
Qed.
Lemma reach_inv p : preach nw calls p -> Inv p /\ Seg p.
Proof.
  induction 1 as [|p p' _ [I S] H|p p' _ [I S] H].
  - split; [apply Inv_init|]. exists [], calls, [], []. cbn. auto 10.
  - assert (Q : Inv p' /\ moves p p') by (destruct H as [(k & _ & H)|H]; [exact (inv_pworker p p' k I H)|exact (inv_pclient p p' I H)]). destruct Q as [I' M]. split; [exact I'|]. exact (Seg_step p p' I I' M S).
  - destruct (inv_pspurious _ _ I H) as [I' M]. split; [exact I'|]. exact (Seg_step p p' I I' M S).
Qed.
Lemma segments p : preach nw calls p -> exists segs cur, plog p = concat segs ++ cur /\ exists dn rest, calls = dn ++ rest /\ Forall2 call_events dn segs /\
  (todo p = [] -> at_ p = Free -> rest = [] /\ cur = []).
Proof.
  intros H. destruct (reach_inv p H) as [I (dn & rest & segs & cur & Ec & F & Ep & D)]. exists segs, cur. split; [exact Ep|]. exists dn, rest. split; [exact Ec|]. split; [exact F|]. intros T Fr.
  destruct D as [(Et & _ & ->)|(c & rest' & post & -> & Et & D)].
  - split; [|reflexivity]. destruct rest as [|c r]; [reflexivity|]. rewrite T in Et. cbn in Et. symmetry in Et. apply app_eq_nil in Et. destruct (call_ops_ne c (proj1 Et)).
  - rewrite T in Et. symmetry in Et. apply app_eq_nil in Et. destruct (D Fr (proj1 Et)).
Qed.

(** ** progress *)
Lemma in_call k o jobs : In (On k o) (call_ops jobs) -> k < length jobs - 1.
Proof.
  unfold call_ops. rewrite !in_app_iff. intros [H|[[H|[]]|H]]; [|discriminate|].
  - apply in_map_iff in H. destruct H as ((k', t) & E & H). injection E as -> _. apply in_combine_l in H. apply in_seq in H. cbn [fst]. lia.
  - apply in_map_iff in H. destruct H as (k' & E & H). injection E as -> _. apply in_seq in H. lia.
Qed.
Hypothesis Hn : Forall (fun jobs => length jobs <= S nw) calls.
Lemma todo_small p : preach nw calls p -> forall k o, In (On k o) (todo p) -> k < nw.
Proof.
  intros R. assert (Q : incl (todo p) prog).
  { induction R as [|p p' R IH H|p p' R IH H]; [apply incl_refl| |].
    - assert (Q : moves p p') by (apply reach_inv in R; destruct R as [I _]; destruct H as [(k & _ & H)|H]; [exact (proj2 (inv_pworker p p' k I H))|exact (proj2 (inv_pclient p p' I H))]).
      destruct Q as (_ & _ & [[-> _]|(_ & _ & x & E)]); [exact IH|]. rewrite E in IH. intros y Hy. apply IH. right. exact Hy.
    - destruct H as (k & s & _ & _ & ->). exact IH. }
  intros k o H. apply Q in H. apply in_flat_map in H. destruct H as (jobs & H1 & H2). apply in_call in H2. rewrite Forall_forall in Hn. specialize (Hn _ H1). cbn in Hn. lia.
Qed.
Lemma at_small p : preach nw calls p -> forall k, at_ p = At k -> k < nw.
Proof.
  induction 1 as [|p p' R IH H|p p' R IH H]; [discriminate| |destruct H as (k & s & _ & _ & ->); exact IH].
  destruct H as [(k & _ & H)|H].
  - unfold pworker in H. destruct (wstep (pw p k)); [|discriminate]. injection H as <-. exact IH.
  - unfold pclient in H. destruct (at_ p) as [|k|t] eqn:Ea.
    + destruct (todo p) as [|[k o|t] r] eqn:Et; [discriminate| |injection H as <-; discriminate]. destruct (Nat.ltb_spec k nw); [|discriminate]. injection H as <-. cbn. congruence.
    + destruct (cstep (pw p k)) as [s|]; [|discriminate]. injection H as <-. cbn. unfold leave. intros j. destruct (cp s); try discriminate; intros E; apply IH; congruence.
    + injection H as <-. discriminate.
Qed.
Lemma no_destroy p : preach nw calls p -> forall k, cp (pw p k) <> CDJoin /\ cp (pw p k) <> CDone /\ cp (pw p k) <> CDNotify /\ cp (pw p k) <> CDStop.
Proof.
  intros R k. apply reach_inv in R. destruct R as [I _]. assert (R := i_reach _ I k). rewrite proj_calls in R.
  assert (ND : ~ In Destroy (flat_map (worker_job k) calls)).
  { intros H. apply in_flat_map in H. destruct H as (c & _ & H). unfold worker_job in H. destruct (nth_error (removelast c) k); [destruct H as [H|[H|[]]]; discriminate|contradiction]. }
  assert (G : forall s, reach (flat_map (worker_job k) calls) s -> incl (ops s) (flat_map (worker_job k) calls) /\ match cp s with CDStop | CDNotify | CDJoin | CDone => False | _ => True end).
  { clear - ND. induction 1 as [|s s' _ [IH1 IH2] H|s s' _ [IH1 IH2] H].
    - split; [apply incl_refl|exact I].
    - destruct s as [stp tsk ow w c o lg]. unfold step, wstep, cstep, set_w, set_c in H. cbn [stop task own wp cp ops log] in *. destruct H as [H|H].
      + destruct w; try discriminate H; repeat match type of H with context [match ?x with _ => _ end] => destruct x eqn:?; try discriminate H end; injection H as <-; cbn [ops cp]; split; try assumption; destruct c; try contradiction; exact I.
      + destruct c; try discriminate H; try contradiction; repeat match type of H with context [match ?x with _ => _ end] => destruct x eqn:?; try discriminate H end; injection H as <-; cbn [ops cp]; split; try assumption; try exact I; try (intros y Hy; apply IH1; right; exact Hy).
        apply ND, IH1. left. reflexivity.
    - destruct s as [stp tsk ow w c o lg]. destruct H as [[_ ->]|[E ->]]; cbn [set_w set_c ops cp] in *; split; try assumption; exact I. }
  apply G in R. destruct R as [_ R]. cbn [with_ops cp] in R. destruct (cp (pw p k)); try contradiction; repeat split; discriminate.
Qed.
Lemma pool_progress p : preach nw calls p -> pool_done p \/ exists p', pstep nw p p'.
Proof.
  intros R. destruct (reach_inv p R) as [I _]. destruct (at_ p) as [|k|t] eqn:Ea.
  - destruct (todo p) as [|[k o|t] r] eqn:Et; [left; split; assumption| |].
    + right. eexists. right. unfold pclient. rewrite Ea, Et. assert (k < nw) by (apply (todo_small p R k o); rewrite Et; left; reflexivity). destruct (Nat.ltb_spec k nw); [reflexivity|lia].
    + right. eexists. right. unfold pclient. rewrite Ea, Et. reflexivity.
  - right. assert (Kn := at_small p R k Ea). assert (Nk : cp (pw p k) <> CIdle) by (apply (i_at _ I); exact Ea). destruct (no_destroy p R k) as (D1 & D2 & _).
    assert (Al : alternates false (projk k prog)) by (rewrite proj_calls; apply alt_jobs). assert (Iv := inv_reach _ _ Al (i_reach _ I k)).
    destruct (progress _ _ Iv) as [[[D _]|D]|[[D _]|[s' [H|H]]]]; cbn [with_ops cp] in *; try congruence.
    + rewrite wstep_ops in H. destruct (wstep (pw p k)) as [s|] eqn:E; [|discriminate]. eexists. left. exists k. split; [exact Kn|]. unfold pworker. rewrite E. reflexivity.
    + rewrite cstep_ops in H by exact Nk. destruct (cstep (pw p k)) as [s|] eqn:E; [|discriminate]. eexists. right. unfold pclient. rewrite Ea, E. reflexivity.
  - right. eexists. right. unfold pclient. rewrite Ea. reflexivity.
Qed.
End Pool.

(** ** termination *)
Definition pop_rank (x : pop) : nat := match x with On _ o => op_rank o | Own _ => 2 end.
Definition srank (f : nat -> st) (nw : nat) : nat := list_sum (map (fun k => rank (f k)) (seq 0 nw)).
Definition prank (nw : nat) (p : pst) : nat := srank (pw p) nw + list_sum (map pop_rank (todo p)) + match at_ p with Busy _ => 1 | _ => 0 end.
Lemma srank_put f k s nw : k < nw -> srank (wput f k s) nw + rank (f k) = srank f nw + rank s.
Proof.
  unfold srank. induction nw as [|n IH]; intros H; [lia|]. rewrite seq_S, !map_app, !list_sum_app. cbn [map list_sum fold_right plus]. destruct (Nat.eq_dec k n) as [->|N].
  - rewrite wput_same. assert (E : map (fun j => rank (wput f n s j)) (seq 0 n) = map (fun j => rank (f j)) (seq 0 n)) by (apply map_ext_in; intros j Hj; apply in_seq in Hj; rewrite wput_other by lia; reflexivity). rewrite E. cbn. lia.
  - rewrite (wput_other f k s n) by lia. specialize (IH ltac:(lia)). cbn. lia.
Qed.
Lemma rank_enter o s : cp s = CIdle -> rank (enter o s) < rank s + op_rank o.
Proof. intros H. unfold rank, enter, set_c. cbn [wp cp task ops]. rewrite H. destruct o; cbn; lia. Qed.
Lemma pstep_rank nw p p' : (forall k, cp (pw p k) <> CIdle <-> at_ p = At k) -> (forall k, at_ p = At k -> k < nw) -> pstep nw p p' -> prank nw p' < prank nw p.
Proof.
  intros A Sm [(k & Hk & H)|H].
  - unfold pworker in H. destruct (wstep (pw p k)) as [s|] eqn:E; [|discriminate]. injection H as <-. unfold prank. cbn [pw todo at_]. assert (Q := srank_put (pw p) k s nw Hk). assert (Q2 := step_rank _ _ (or_introl E)). lia.
  - unfold pclient in H. destruct (at_ p) as [|k|t] eqn:Ea.
    + destruct (todo p) as [|[k o|t] r] eqn:Et; [discriminate| |].
      * destruct (Nat.ltb_spec k nw) as [Hk|]; [|discriminate]. injection H as <-. unfold prank. cbn [pw todo at_]. rewrite Ea, Et. cbn [map list_sum fold_right pop_rank]. assert (Q := srank_put (pw p) k (enter o (pw p k)) nw Hk).
        assert (Ci : cp (pw p k) = CIdle) by (specialize (A k); destruct (cp (pw p k)) eqn:E; try reflexivity; exfalso; (assert (Free = At k) by (apply A; congruence)); discriminate). assert (Q2 := rank_enter o _ Ci). unfold list_sum. lia.
      * injection H as <-. unfold prank. cbn [pw todo at_]. rewrite Ea, Et. change (list_sum (map pop_rank (Own t :: r))) with (2 + list_sum (map pop_rank r)). lia.
    + destruct (cstep (pw p k)) as [s|] eqn:E; [|discriminate]. injection H as <-. unfold prank. cbn [pw todo at_]. rewrite Ea. assert (Q := srank_put (pw p) k s nw (Sm k eq_refl)). assert (Q2 := step_rank _ _ (or_intror E)). unfold leave. destruct (cp s); lia.
    + injection H as <-. unfold prank. cbn [pw todo at_]. rewrite Ea. lia.
Qed.
Lemma psteps_bound nw calls : Forall (fun jobs => length jobs <= S nw) calls -> forall n p p', psteps nw n p p' -> preach nw calls p -> n + prank nw p' <= prank nw p.
Proof.
  intros Hn. induction 1 as [|n p p1 p' H _ IH]; intros R; [lia|]. assert (R1 : preach nw calls p1) by (eapply preach_step; eassumption). specialize (IH R1).
  assert (Q : prank nw p1 < prank nw p); [|lia]. apply pstep_rank; [apply (i_at calls p), (reach_inv nw calls p R)|apply (at_small nw calls), R|exact H].
Qed.
