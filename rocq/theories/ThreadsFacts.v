(** Facts about parallel loops. *)
From Coq Require Import ZArith List Bool Lia Permutation.
From Verif Require Import Multiexp MultiexpFacts MsmFacts Par ParFacts Threads.
Import ListNotations.
Open Scope Z_scope.
Ltac Zify.zify_post_hook ::= idtac.

Definition zsum (l : list Z) : Z := fold_right Z.add 0 l.
Lemma zsum_repeat x k : zsum (repeat x k) = x * Z.of_nat k.
Proof. induction k as [|k IH]; [cbn; lia|]. cbn [repeat zsum fold_right]. fold (zsum (repeat x k)). lia. Qed.
Lemma bump_sum k : forall l, (k <= length l)%nat -> zsum (bump k l) = zsum l + Z.of_nat k.
Proof.
  induction k as [|k IH]; intros [|j l] H; cbn [bump length] in *; try lia. cbn [zsum fold_right]. fold (zsum (bump k l)). fold (zsum l). rewrite IH by lia. lia.
Qed.
Lemma bump_length k : forall l, length (bump k l) = length l.
Proof. induction k as [|k IH]; intros [|j l]; cbn; try reflexivity. rewrite IH. reflexivity. Qed.
Lemma bump_in k : forall l x j, (forall y, In y l -> y = j) -> In x (bump k l) -> x = j \/ x = j + 1.
Proof.
  induction k as [|k IH]; intros [|y l] x j H Hx; cbn [bump] in Hx; try (left; apply H; exact Hx).
  destruct Hx as [<-|Hx]; [right; rewrite (H y (or_introl eq_refl)); reflexivity|]. eapply IH; [|exact Hx]. intros; apply H; right; assumption.
Qed.
Lemma divideWork_ok c t : 0 < c -> 0 < t -> exists jobs, divideWork c t = Some jobs /\ Z.of_nat (length jobs) = Z.min c t /\ zsum jobs = c /\
  (exists s, 1 <= s /\ forall j, In j jobs -> j = s \/ j = s + 1).
Proof.
  intros Hc Ht. unfold divideWork. destruct (Z.leb_spec c 0); [lia|]. destruct (Z.leb_spec t 0); [lia|]. destruct (Z.leb_spec c t) as [H1|H1].
  - exists (repeat 1 (Z.to_nat c)). split; [reflexivity|]. rewrite repeat_length. split; [lia|]. split; [rewrite zsum_repeat; lia|]. exists 1. split; [lia|]. intros j Hj. apply repeat_spec in Hj. auto.
  - pose proof (Z.mod_pos_bound c t Ht) as MB. pose proof (Z.div_mod c t ltac:(lia)) as DM. assert (Hq : 1 <= c / t) by (apply Z.div_le_lower_bound; lia).
    eexists. split; [reflexivity|]. rewrite bump_length, repeat_length. split; [lia|]. rewrite bump_sum by (rewrite repeat_length; lia). rewrite zsum_repeat. split; [lia|].
    exists (c / t). split; [exact Hq|]. intros j Hj. eapply bump_in; [|exact Hj]. intros y Hy. eapply repeat_spec, Hy.
Qed.
(** the calls cover the range in order *)
Lemma job_calls_ok jobs : forall b k, (forall j, In j jobs -> 0 <= j) ->
  flat_map (fun c => zrange (fst (fst c)) (Z.to_nat (snd (fst c) - fst (fst c)))) (job_calls b k jobs) = zrange b (Z.to_nat (zsum jobs)) /\
  map snd (job_calls b k jobs) = zrange k (length jobs) /\
  forall c, In c (job_calls b k jobs) -> b <= fst (fst c) <= snd (fst c) /\ snd (fst c) <= b + zsum jobs.
Proof.
  induction jobs as [|j jobs IH]; intros b k H; [split; [reflexivity|split; [reflexivity|intros c []]]|]. cbn [job_calls flat_map map fst snd length zsum fold_right]. fold (zsum jobs).
  assert (Hj : 0 <= j) by (apply H; left; reflexivity). destruct (IH (b + j) (k + 1)) as (I1 & I2 & I3); [intros; apply H; right; assumption|].
  assert (Hz : 0 <= zsum jobs). { clear -H. induction jobs as [|x l IH]; [cbn; lia|]. cbn [zsum fold_right]. fold (zsum l). assert (0 <= x) by (apply H; right; left; reflexivity). assert (0 <= zsum l); [|lia]. apply IH. intros y [<-|Hy]; apply H; [left; reflexivity|right; right; exact Hy]. }
  split; [|split].
  - rewrite I1. replace (b + j - b) with j by lia. rewrite Z2Nat.inj_add by lia. rewrite zrange_app. rewrite Z2Nat.id by lia. reflexivity.
  - rewrite I2, zrange_S. reflexivity.
  - intros c [<-|Hc]; cbn [fst snd]; [lia|]. specialize (I3 c Hc). lia.
Qed.
Lemma parallelFor_calls_int nT b e : 1 <= nT < 2 ^ 31 -> - 2 ^ 31 <= b < e -> e < 2 ^ 31 -> e - b < 2 ^ 31 -> exists calls, parallelFor_calls nT b e = Some calls /\
  flat_map (fun c => zrange (fst (fst c)) (Z.to_nat (snd (fst c) - fst (fst c)))) calls = zrange b (Z.to_nat (e - b)) /\
  map snd calls = zrange 0 (Z.to_nat (Z.min (e - b) nT)) /\ forall c, In c calls -> b <= fst (fst c) < snd (fst c) /\ snd (fst c) <= e.
Proof.
  intros HT Hb He Hd. unfold parallelFor_calls. rewrite !s32_small by lia. destruct (Z.leb_spec (2 ^ 31) (e - b)); [lia|]. destruct (Z.ltb_spec (e - b) (- 2 ^ 31)); [lia|]. cbn [orb].
  destruct (divideWork_ok (e - b) nT) as (jobs & -> & L & S & s & Hs & J); [lia|lia|]. cbn [obind]. exists (job_calls b 0 jobs). split; [reflexivity|].
  assert (P : forall j, In j jobs -> 0 <= j) by (intros j Hj; destruct (J j Hj); lia).
  destruct (job_calls_ok jobs b 0 P) as (I1 & I2 & I3). rewrite S in *. split; [exact I1|]. split; [rewrite I2; f_equal; lia|].
  intros c Hc. specialize (I3 c Hc). split; [|lia]. split; [lia|].
  assert (Q : forall jobs b k, (forall j, In j jobs -> 1 <= j) -> In c (job_calls b k jobs) -> fst (fst c) < snd (fst c)).
  { clear. induction jobs as [|j jobs IH]; intros b k H Hc; [destruct Hc|]. destruct Hc as [<-|Hc]; cbn [fst snd]; [specialize (H j (or_introl eq_refl)); lia|]. eapply IH; [|exact Hc]. intros; apply H; right; assumption. }
  eapply Q; [|exact Hc]. intros j Hj. destruct (J j Hj); lia.
Qed.
Lemma parallelFor_calls_ok nT b e : 1 <= nT < 2 ^ 31 -> 0 <= b < e -> e < 2 ^ 31 -> exists calls, parallelFor_calls nT b e = Some calls /\
  flat_map (fun c => zrange (fst (fst c)) (Z.to_nat (snd (fst c) - fst (fst c)))) calls = zrange b (Z.to_nat (e - b)) /\
  map snd calls = zrange 0 (Z.to_nat (Z.min (e - b) nT)) /\ forall c, In c calls -> b <= fst (fst c) < snd (fst c) /\ snd (fst c) <= e.
Proof. intros. apply parallelFor_calls_int; lia. Qed.

Section Exec.
Variable V : Type.
Variables (body : Z -> Z -> list (instr V)).
(** iterations that do not conflict, whatever threads they run on *)
Definition iter_indep (b e : Z) : Prop := forall i j th th', b <= i < e -> b <= j < e -> i <> j -> th <> th' -> indep (body th i) (body th' j).
Lemma job_code_in c x : In x (job_code V body c) -> exists i, fst (fst c) <= i < snd (fst c) /\ In x (body (snd c) i).
Proof. destruct c as [[b e] k]. cbn. intros H. apply in_flat_map in H. destruct H as (i & Hi & Hx). apply zrange_in in Hi. exists i. split; [lia|exact Hx]. Qed.
Lemma jobs_race_free b e jobs : forall b0 k, (forall j, In j jobs -> 0 <= j) -> b <= b0 -> b0 + zsum jobs <= e -> iter_indep b e -> race_free (map (job_code V body) (job_calls b0 k jobs)).
Proof.
  induction jobs as [|j jobs IH]; intros b0 k Hj Hb He HI; [constructor|]. cbn [job_calls map]. cbn [zsum fold_right] in He. fold (zsum jobs) in He.
  assert (0 <= j) by (apply Hj; left; reflexivity). constructor.
  - apply Forall_forall. intros t Ht. apply in_map_iff in Ht. destruct Ht as (c & <- & Hc). intros x y Hx Hy.
    apply job_code_in in Hx. apply job_code_in in Hy. cbn [fst snd] in Hx. destruct Hx as (i & Hi & Hx), Hy as (i' & Hi' & Hy).
    destruct (job_calls_ok jobs (b0 + j) (k + 1)) as (_ & I2 & I3); [intros; apply Hj; right; assumption|]. specialize (I3 c Hc).
    assert (Hk : In (snd c) (zrange (k + 1) (length jobs))) by (rewrite <- I2; apply in_map, Hc). apply zrange_in in Hk.
    apply (HI i i' k (snd c)); try lia; assumption.
  - apply IH; try lia; try assumption. intros; apply Hj; right; assumption.
Qed.
Lemma concat_jobs calls : concat (map (job_code V body) calls) = flat_map (fun it => body (fst it) (snd it)) (flat_map (fun c => map (fun i => (snd c, i)) (zrange (fst (fst c)) (Z.to_nat (snd (fst c) - fst (fst c))))) calls).
Proof.
  induction calls as [|[[b e] k] calls IH]; [reflexivity|]. cbn [map concat flat_map fst snd]. rewrite IH, flat_map_app. f_equal. cbn [job_code].
  generalize (zrange b (Z.to_nat (e - b))) as l. induction l as [|i l IHl]; [reflexivity|]. cbn. rewrite IHl. reflexivity.
Qed.
(** every execution of the loop has the effect of running the iterations one
    after the other; [its] pairs them with the threads *)
Theorem parfor_seq nT b e m m' : 1 <= nT < 2 ^ 31 -> 0 <= b < e -> e < 2 ^ 31 -> iter_indep b e -> parfor V nT b e body m m' ->
  exists its, map snd its = zrange b (Z.to_nat (e - b)) /\ (forall it, In it its -> 0 <= fst it < nT) /\ meq m' (prun (flat_map (fun it => body (fst it) (snd it)) its) m).
Proof.
  intros HT Hb He HI (calls & l & E & I & Q). destruct (parallelFor_calls_ok nT b e HT Hb He) as (calls' & E' & F1 & F2 & F3). rewrite E in E'. injection E' as <-.
  exists (flat_map (fun c => map (fun i => (snd c, i)) (zrange (fst (fst c)) (Z.to_nat (snd (fst c) - fst (fst c))))) calls). split; [|split].
  - rewrite <- F1. clear. induction calls as [|c calls IH]; [reflexivity|]. cbn [flat_map]. rewrite map_app, IH. f_equal. rewrite map_map. cbn [snd]. apply map_id.
  - intros it Hit. apply in_flat_map in Hit. destruct Hit as (c & Hc & Hit). apply in_map_iff in Hit. destruct Hit as (i & <- & _). cbn [fst].
    assert (Hk : In (snd c) (map snd calls)) by (apply in_map, Hc). rewrite F2 in Hk. apply zrange_in in Hk. lia.
  - rewrite <- concat_jobs. eapply meq_trans; [exact Q|]. apply inter_run; [exact I|].
    unfold parallelFor_calls in E. rewrite !s32_small in E by lia. destruct (_ || _) in E; [discriminate|].
    destruct (divideWork_ok (e - b) nT) as (jobs & Ej & L & S & s & Hs & J); [lia|lia|]. rewrite Ej in E. cbn [obind] in E. injection E as <-.
    apply (jobs_race_free b e); try lia; try assumption. intros j Hj. destruct (J j Hj); lia.
Qed.
Lemma parfor_exists nT b e m : 1 <= nT < 2 ^ 31 -> 0 <= b < e -> e < 2 ^ 31 -> exists m', parfor V nT b e body m m'.
Proof.
  intros HT Hb He. destruct (parallelFor_calls_ok nT b e HT Hb He) as (calls & E & _). eexists. exists calls, (concat (map (job_code V body) calls)). split; [exact E|]. split; [apply inter_concat|apply meq_refl].
Qed.
End Exec.
