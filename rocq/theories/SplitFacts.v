(** Facts about splitParStr. *)
From Coq Require Import ZArith List Lia Bool.
From Verif Require Import Split.
Import ListNotations.
Open Scope Z_scope.

(** Nested tuples (specification). *)
Inductive tree := Leaf (s : str) | Node (cs : list tree).
Fixpoint join (l : list str) : str :=
  match l with [] => [] | [x] => x | x :: l => x ++ [COMMA] ++ join l end.
Fixpoint print (t : tree) : str :=
  match t with Leaf s => s | Node cs => [LP] ++ join (map print cs) ++ [RP] end.
Definition plain (c : Z) : bool := negb ((c =? LP) || (c =? RP) || (c =? COMMA) || isspace c).
(** leaves non-empty without brackets, commas, spaces; nodes with at least two children *)
Inductive wf : tree -> Prop :=
| wf_leaf s : s <> [] -> forallb plain s = true -> wf (Leaf s)
| wf_node cs : (2 <= length cs)%nat -> Forall wf cs -> wf (Node cs).
(** text without the outer brackets *)
Definition inner (t : tree) : str := match t with Leaf s => s | Node cs => join (map print cs) end.

Section TreeInd.
Variable Q : tree -> Prop.
Hypothesis HL : forall s, s <> [] -> forallb plain s = true -> Q (Leaf s).
Hypothesis HN : forall cs, (2 <= length cs)%nat -> Forall wf cs -> Forall Q cs -> Q (Node cs).
Fixpoint wf_ind2 t (H : wf t) {struct H} : Q t :=
  match H in wf t return Q t with
  | wf_leaf s H1 H2 => HL s H1 H2
  | wf_node cs H1 H2 =>
      HN cs H1 H2 ((fix go l (F : Forall wf l) : Forall Q l :=
         match F in Forall _ l return Forall Q l with
         | Forall_nil _ => Forall_nil Q
         | Forall_cons x Hx Hl => Forall_cons x (wf_ind2 _ Hx) (go _ Hl)
         end) cs H2)
  end.
End TreeInd.

(** ** Depth *)
Definition dl (c : Z) : Z := if c =? LP then 1 else if c =? RP then -1 else 0.
Fixpoint dsum (l : str) : Z := match l with [] => 0 | c :: l => dl c + dsum l end.
Definition D (s : str) (i : nat) : Z := dsum (firstn i s).

Lemma dsum_app l l' : dsum (l ++ l') = dsum l + dsum l'.
Proof. induction l; cbn [app dsum]; lia. Qed.
Lemma dl_range c : -1 <= dl c <= 1.
Proof. unfold dl. destruct (c =? LP), (c =? RP); lia. Qed.
Lemma D_0 s : D s 0 = 0. Proof. reflexivity. Qed.
Lemma D_all s i : (length s <= i)%nat -> D s i = dsum s.
Proof. intros H. unfold D. rewrite firstn_all2 by auto. reflexivity. Qed.
Lemma firstn_S (s : str) i : (i < length s)%nat -> firstn (S i) s = firstn i s ++ [ch s i].
Proof.
  revert i; induction s as [|c s IH]; intros i H; cbn in H; [lia|]. destruct i; [reflexivity|].
  cbn [firstn app ch nth]. f_equal. apply IH. lia.
Qed.
Lemma D_S s i : (i < length s)%nat -> D s (S i) = D s i + dl (ch s i).
Proof. intros H. unfold D. rewrite firstn_S, dsum_app by auto. cbn [dsum]. lia. Qed.
Lemma D_lip s i j : (i <= j)%nat -> D s j - D s i <= Z.of_nat (j - i).
Proof.
  induction 1 as [|j H IH]; [lia|]. destruct (Nat.lt_ge_cases j (length s)) as [L|L].
  - rewrite D_S by auto. pose proof (dl_range (ch s j)). lia.
  - rewrite !D_all in * by lia. lia.
Qed.
Lemma D_app1 a b i : (i <= length a)%nat -> D (a ++ b) i = D a i.
Proof. intros H. unfold D. rewrite firstn_app. replace (i - length a)%nat with 0%nat by lia. rewrite app_nil_r. reflexivity. Qed.
Lemma D_app2 a b i : (length a <= i)%nat -> D (a ++ b) i = dsum a + D b (i - length a).
Proof. intros H. unfold D. rewrite firstn_app, (firstn_all2 a) by auto. apply dsum_app. Qed.

(** ** scan *)
Lemma scan_spec l : forall ins mn, 
  scan l ins mn <= mn /\ (forall i, (0 < i <= length l)%nat -> scan l ins mn <= ins + D l i) /\
  (scan l ins mn = mn \/ exists i, (0 < i <= length l)%nat /\ scan l ins mn = ins + D l i).
Proof.
  induction l as [|c l IH]; intros ins mn; cbn [scan length].
  - split; [lia|]. split; [intros; lia|]. left; reflexivity.
  - assert (E : (if c =? RP then (if c =? LP then ins + 1 else ins) - 1 else if c =? LP then ins + 1 else ins) = ins + dl c).
    { unfold dl. destruct (Z.eqb_spec c LP) as [->|]; [cbn; lia|]. destruct (c =? RP); lia. }
    rewrite E. set (ins' := ins + dl c). set (mn' := if ins' <? mn then ins' else mn).
    assert (M : mn' <= mn /\ mn' <= ins' /\ (mn' = mn \/ mn' = ins')) by (unfold mn'; destruct (Z.ltb_spec ins' mn); lia).
    destruct (IH ins' mn') as (H1 & H2 & H3).
    assert (E1 : D (c :: l) 1 = dl c) by (cbn; lia).
    assert (ES : forall i, D (c :: l) (S i) = dl c + D l i) by reflexivity.
    split; [lia|]. split.
    + intros i Hi. destruct i as [|i]; [lia|]. rewrite ES. destruct i as [|i].
      * rewrite D_0. unfold ins' in *. lia.
      * specialize (H2 (S i) ltac:(lia)). unfold ins' in *. lia.
    + destruct H3 as [H3|(i & Hi & H3)].
      * destruct M as (_ & _ & [M|M]); [left; lia|]. right. exists 1%nat. split; [lia|]. rewrite E1. unfold ins' in *. lia.
      * right. exists (S i). split; [lia|]. rewrite ES. unfold ins' in *. lia.
Qed.

(** ** counting the brackets *)
Lemma count_spec f : forall ns s, (forall j, (j < ns)%nat -> ch s j = LP /\ ch s (length s - 1 - j) = RP) ->
  let r := count_pars f ns s in
  (ns <= r)%nat /\ (forall j, (j < r)%nat -> ch s j = LP /\ ch s (length s - 1 - j) = RP).
Proof.
  induction f as [|f IH]; intros ns s H; cbn [count_pars]; [split; [lia|exact H]|].
  destruct ((ns * 2 <=? length s)%nat && (ch s ns =? LP) && (ch s (length s - 1 - ns) =? RP)) eqn:E; [|split; [lia|exact H]].
  rewrite !andb_true_iff, !Z.eqb_eq in E. destruct E as [[E1 E2] E3].
  destruct (IH (S ns) s) as [I1 I2].
  { intros j Hj. destruct (Nat.eq_dec j ns) as [->|]; [auto|]. apply H. lia. }
  split; [lia|exact I2].
Qed.
Lemma ch_lt s i c : ch s i = c -> c <> 0 -> (i < length s)%nat.
Proof. intros H N. destruct (Nat.lt_ge_cases i (length s)) as [|L]; [auto|]. unfold ch in H. rewrite nth_overflow in H; auto. congruence. Qed.
(** opening and closing runs do not overlap *)
Lemma runs_le s r : (forall j, (j < r)%nat -> ch s j = LP /\ ch s (length s - 1 - j) = RP) -> (2 * r <= length s)%nat.
Proof.
  intros H. destruct (Nat.le_gt_cases (2 * r) (length s)) as [|G]; [auto|]. exfalso.
  destruct r as [|r]; [lia|].
  pose proof (ch_lt s r LP (proj1 (H r ltac:(lia))) ltac:(discriminate)).
  destruct (H (length s - 1 - r)%nat ltac:(lia)) as [A _]. destruct (H r ltac:(lia)) as [_ B]. rewrite A in B. discriminate.
Qed.
(** the loop really stops: its condition is false at the end *)
Lemma count_exit s : let r := count_pars (S (length s)) 0 s in
  (r * 2 <=? length s)%nat && (ch s r =? LP) && (ch s (length s - 1 - r) =? RP) = false.
Proof.
  assert (G : forall f ns, (length s < f + ns)%nat -> (forall j, (j < ns)%nat -> ch s j = LP /\ ch s (length s - 1 - j) = RP) ->
     let r := count_pars f ns s in (r * 2 <=? length s)%nat && (ch s r =? LP) && (ch s (length s - 1 - r) =? RP) = false).
  { induction f as [|f IH]; intros ns L H; cbn [count_pars].
    - pose proof (runs_le s ns H). lia.
    - destruct ((ns * 2 <=? length s)%nat && (ch s ns =? LP) && (ch s (length s - 1 - ns) =? RP)) eqn:E; [|exact E].
      apply IH; [lia|]. rewrite !andb_true_iff, !Z.eqb_eq in E. destruct E as [[E1 E2] E3].
      intros j Hj. destruct (Nat.eq_dec j ns) as [->|]; [auto|]. apply H. lia. }
  apply G; [lia|]. intros; lia.
Qed.
(** no index used is beyond the terminating 0 *)
Lemma count_in_bounds s r : (forall j, (j < r)%nat -> ch s j = LP /\ ch s (length s - 1 - j) = RP) -> (r <= length s)%nat.
Proof. intros H. pose proof (runs_le s r H). lia. Qed.

Lemma D_run s r : (forall j, (j < r)%nat -> ch s j = LP /\ ch s (length s - 1 - j) = RP) ->
  (forall j, (j <= r)%nat -> D s j = Z.of_nat j) /\
  (forall j, (j <= r)%nat -> D s (length s - j) = dsum s + Z.of_nat j).
Proof.
  intros H. pose proof (runs_le s r H) as L. split; induction j as [|j IH]; intros Hj.
  - reflexivity.
  - rewrite D_S, IH by lia. rewrite (proj1 (H j ltac:(lia))). cbn. lia.
  - rewrite Nat.sub_0_r, D_all by lia. lia.
  - specialize (IH ltac:(lia)). replace (length s - j)%nat with (S (length s - S j)) in IH by lia.
    rewrite D_S in IH by lia. replace (length s - S j)%nat with (length s - 1 - j)%nat in * by lia.
    rewrite (proj2 (H j ltac:(lia))) in IH. change (dl RP) with (-1) in IH. lia.
Qed.

(** ** Main lemma: [b] is the number of bracket pairs around the whole text; [e]
    is the end of the first component. *)
Lemma removePars_depth s (b : nat) e : (b <= 1)%nat ->
  (b <= count_pars (S (length s)) 0 s)%nat -> dsum s = 0 ->
  (forall i, (b <= i <= length s - b)%nat -> Z.of_nat b <= D s i) ->
  (b < e)%nat -> (e + 1 < length s - b)%nat -> D s e = Z.of_nat b -> D s (e + 1) = Z.of_nat b ->
  removePars s = Some (firstn (length s - b - b) (skipn b s)).
Proof.
  intros Hb1 Hb Hd Hge He1 He2 De De1. unfold removePars.
  destruct (count_spec (S (length s)) 0 s) as [_ HR]; [intros; lia|].
  set (r := count_pars (S (length s)) 0 s) in *.
  pose proof (runs_le s r HR) as L2. destruct (D_run s r HR) as [DL DR].
  set (reg := firstn (length s - r * 2 - r) (skipn r s)).
  assert (RD : forall i, (i <= length reg)%nat -> (r + i <= length s)%nat /\ D reg i = D s (r + i) - Z.of_nat r).
  { intros i Hi. unfold reg in Hi. rewrite firstn_length, skipn_length in Hi. split; [lia|].
    unfold D, reg. rewrite firstn_firstn, Nat.min_l by lia.
    assert (E : firstn (r + i) s = firstn r s ++ firstn i (skipn r s)).
    { rewrite <- (firstn_skipn r s) at 1. rewrite firstn_app, firstn_length, Nat.min_l by lia.
      rewrite firstn_firstn, Nat.min_r by lia. replace (r + i - r)%nat with i by lia. reflexivity. }
    rewrite E, dsum_app. fold (D s r). rewrite DL by lia. lia. }
  assert (LR : length reg = (length s - r * 2 - r)%nat) by (unfold reg; rewrite firstn_length, skipn_length; lia).
  assert (M : scan reg 0 0 = Z.of_nat b - Z.of_nat r).
  { destruct (scan_spec reg 0 0) as (S1 & S2 & S3).
    assert (Lo : Z.of_nat b - Z.of_nat r <= scan reg 0 0).
    { destruct S3 as [->|(i & Hi & ->)]; [lia|]. destruct (RD i ltac:(lia)) as [B1 ->].
      specialize (Hge (r + i)%nat). rewrite LR in Hi. lia. }
    destruct (Nat.eq_dec r b) as [E|N]; [lia|].
    assert (Hr : (r < e)%nat).
    { destruct (Nat.le_gt_cases e r) as [G|G]; [|exact G]. rewrite DL in De by lia. lia. }
    assert (Hm : (e + 1 <= length s - r)%nat).
    { destruct (Nat.le_gt_cases (e + 1) (length s - r)) as [G|G]; [exact G|].
      specialize (DR (length s - (e + 1))%nat ltac:(lia)). replace (length s - (length s - (e + 1)))%nat with (e + 1)%nat in DR by lia. lia. }
    pose proof (D_lip s (e + 1) (length s - r) Hm) as Lip. rewrite DR, Hd, De1 in Lip by lia.
    specialize (S2 (e - r)%nat). destruct (RD (e - r)%nat) as [_ E2]; [lia|].
    rewrite E2 in S2. replace (r + (e - r))%nat with e in S2 by lia. lia. }
  rewrite M. replace (Z.of_nat r + (Z.of_nat b - Z.of_nat r)) with (Z.of_nat b) by lia.
  destruct (Z.ltb_spec (Z.of_nat b) 0); [lia|]. rewrite Nat2Z.id, skipn_length.
  destruct (Nat.ltb_spec (length s - b) b); [lia|]. reflexivity.
Qed.

(** ** Depth of printed texts *)
Lemma plain_dl c : plain c = true -> dl c = 0.
Proof. unfold plain, dl. destruct (c =? LP), (c =? RP); try discriminate. reflexivity. Qed.
Lemma plain_dsum s : forallb plain s = true -> dsum s = 0.
Proof. induction s as [|c s IH]; [reflexivity|]. cbn. intros H. apply andb_true_iff in H as [H1 H2]. rewrite plain_dl, IH by auto. reflexivity. Qed.
Lemma forallb_firstn (f : Z -> bool) s i : forallb f s = true -> forallb f (firstn i s) = true.
Proof. revert i; induction s as [|c s IH]; intros i H; destruct i; auto. cbn in *. apply andb_true_iff in H as [-> H]. cbn. auto. Qed.

Definition balanced (s : str) : Prop := dsum s = 0 /\ forall i, 0 <= D s i.
Lemma balanced_app a b : balanced a -> balanced b -> balanced (a ++ b).
Proof.
  intros [A1 A2] [B1 B2]. split; [rewrite dsum_app; lia|]. intros i.
  destruct (Nat.le_gt_cases i (length a)); [rewrite D_app1 by auto; auto|]. rewrite D_app2 by lia. specialize (B2 (i - length a)%nat). lia.
Qed.
Lemma balanced_comma : balanced [COMMA].
Proof. split; [reflexivity|]. intros i. destruct i as [|[|i]]; cbn; lia. Qed.
Lemma balanced_join l : Forall balanced l -> balanced (join l).
Proof.
  induction 1 as [|x l Hx Hl IH].
  - split; [reflexivity|]. intros i. destruct i; cbn; lia.
  - destruct l as [|y l]; [exact Hx|]. change (balanced (x ++ [COMMA] ++ join (y :: l))).
    apply balanced_app; [auto|]. apply balanced_app; [apply balanced_comma|auto].
Qed.
Lemma balanced_print t : wf t -> balanced (print t).
Proof.
  intros H. induction H using wf_ind2.
  - cbn. split; [apply plain_dsum; auto|]. intros i. unfold D. rewrite plain_dsum; [lia|]. apply forallb_firstn; auto.
  - cbn [print]. assert (B : balanced (join (map print cs))).
    { apply balanced_join. clear -H1. induction H1; constructor; auto. }
    destruct B as [B1 B2]. split.
    { rewrite !dsum_app, B1. reflexivity. }
    intros i. destruct i as [|i]; [cbn; lia|].
    change (D ([LP] ++ join (map print cs) ++ [RP]) (S i)) with (1 + D (join (map print cs) ++ [RP]) i).
    destruct (Nat.le_gt_cases i (length (join (map print cs)))) as [G|G].
    + rewrite D_app1 by auto. specialize (B2 i). lia.
    + rewrite D_app2, B1 by lia. destruct (i - length (join (map print cs)))%nat as [|[|k]]; cbn; lia.
Qed.
Lemma print_nonempty t : wf t -> print t <> [].
Proof. intros H. destruct H; [auto|]. cbn. discriminate. Qed.
Lemma join_nonempty l : l <> [] -> Forall (fun s => s <> []) l -> join l <> [].
Proof.
  intros N H. destruct H as [|x l Hx Hl]; [congruence|]. destruct l; [exact Hx|].
  cbn. destruct x; [congruence|]. discriminate.
Qed.
Lemma prints_nonempty cs : Forall wf cs -> Forall (fun s => s <> []) (map print cs).
Proof. induction 1; constructor; auto. apply print_nonempty; auto. Qed.

(** removePars on the three shapes *)
Lemma removePars_leaf s : forallb plain s = true -> removePars s = Some s.
Proof.
  intros H. unfold removePars.
  assert (E : count_pars (S (length s)) 0 s = 0%nat).
  { destruct (count_spec (S (length s)) 0 s) as [_ HR]; [intros; lia|]. destruct (count_pars (S (length s)) 0 s) as [|r]; [reflexivity|].
    exfalso. destruct (HR 0%nat ltac:(lia)) as [A _]. destruct s as [|c s]; [discriminate|]. cbn in A. subst c. discriminate. }
  rewrite E. cbn [Nat.mul skipn]. rewrite Nat.sub_0_r, Nat.sub_0_r, firstn_all2 by lia.
  replace (scan s 0 0) with 0.
  2:{ destruct (scan_spec s 0 0) as (S1 & _ & [S3|(i & Hi & S3)]); [auto|]. rewrite S3. unfold D. rewrite plain_dsum by (apply forallb_firstn; auto). reflexivity. }
  cbn [Z.of_nat Z.add Z.ltb Z.compare Z.to_nat skipn]. destruct (Nat.ltb_spec (length s) 0); [lia|].
  rewrite Nat.sub_0_r, firstn_all2 by lia. reflexivity.
Qed.

Lemma forest_split cs : (2 <= length cs)%nat -> Forall wf cs -> exists a b, 
  join (map print cs) = a ++ [COMMA] ++ b /\ a <> [] /\ b <> [] /\ balanced a /\ balanced b.
Proof.
  intros L F. destruct cs as [|t [|t' cs]]; cbn in L; try lia.
  inversion F as [|? ? W1 F1]; subst. exists (print t), (join (map print (t' :: cs))).
  split; [reflexivity|]. split; [apply print_nonempty; auto|].
  split; [apply join_nonempty; [discriminate|apply prints_nonempty; auto]|]. split; [apply balanced_print; auto|].
  apply balanced_join. clear -F1. induction F1; constructor; auto using balanced_print.
Qed.
Lemma removePars_forest cs : (2 <= length cs)%nat -> Forall wf cs ->
  removePars (join (map print cs)) = Some (join (map print cs)).
Proof.
  intros L F. destruct (forest_split cs L F) as (a & b & E & Na & Nb & Ba & Bb). rewrite E.
  set (s := a ++ [COMMA] ++ b).
  assert (Bs : balanced s) by (apply balanced_app; [auto|apply balanced_app; [apply balanced_comma|auto]]).
  assert (Ls : length s = (length a + (1 + length b))%nat) by (unfold s; rewrite !app_length; reflexivity).
  assert (La : (0 < length a)%nat) by (destruct a; [congruence|cbn; lia]).
  assert (Lb : (0 < length b)%nat) by (destruct b; [congruence|cbn; lia]).
  rewrite (removePars_depth s 0 (length a)).
  - cbn [skipn]. rewrite !Nat.sub_0_r, firstn_all. reflexivity.
  - lia.
  - lia.
  - apply Bs.
  - intros i _. apply Bs.
  - lia.
  - lia.
  - unfold s. rewrite D_app1, D_all by lia. apply Ba.
  - unfold s. rewrite app_assoc, D_app1 by (rewrite app_length; cbn; lia). rewrite D_all by (rewrite app_length; cbn; lia).
    rewrite dsum_app, (proj1 Ba). reflexivity.
Qed.
Lemma removePars_node cs : (2 <= length cs)%nat -> Forall wf cs ->
  removePars (print (Node cs)) = Some (join (map print cs)).
Proof.
  intros L F. destruct (forest_split cs L F) as (a & b & E & Na & Nb & Ba & Bb).
  set (f := join (map print cs)) in *. cbn [print]. fold f. set (s := [LP] ++ f ++ [RP]).
  assert (Bf : balanced f) by (rewrite E; apply balanced_app; [auto|apply balanced_app; [apply balanced_comma|auto]]).
  assert (Lf : length f = (length a + (1 + length b))%nat) by (rewrite E, !app_length; reflexivity).
  assert (La : (0 < length a)%nat) by (destruct a; [congruence|cbn; lia]).
  assert (Lb : (0 < length b)%nat) by (destruct b; [congruence|cbn; lia]).
  assert (Ls : length s = (2 + length f)%nat) by (unfold s; rewrite !app_length; cbn; lia).
  assert (DS : forall i, (i <= length f)%nat -> D s (S i) = 1 + D f i).
  { intros i Hi. unfold s. change (D ([LP] ++ f ++ [RP]) (S i)) with (1 + D (f ++ [RP]) i). rewrite D_app1 by auto. reflexivity. }
  assert (Last : ch s (length s - 1 - 0) = RP).
  { assert (Es : s = ([LP] ++ f) ++ [RP]) by (unfold s; rewrite app_assoc; reflexivity). rewrite Ls. unfold ch.
    rewrite Es, app_nth2; rewrite app_length; cbn [length]; [|lia].
    replace (2 + length f - 1 - 0 - (1 + length f))%nat with 0%nat by lia. reflexivity. }
  rewrite (removePars_depth s 1 (1 + length a)).
  - f_equal. unfold s at 2. cbn [app skipn]. rewrite firstn_app. replace (length s - 1 - 1)%nat with (length f) by lia.
    rewrite firstn_all, Nat.sub_diag. cbn [firstn]. apply app_nil_r.
  - lia.
  - cbn [count_pars]. replace (0 * 2 <=? length s)%nat with true by reflexivity.
    replace (ch s 0) with LP by reflexivity.
    rewrite Last.
    cbn [Z.eqb andb]. rewrite !Z.eqb_refl. cbn [andb].
    destruct (count_spec (length s) 1 s) as [G _]; [|exact G].
    intros j Hj. replace j with 0%nat by lia. split; [reflexivity|].
    exact Last.
  - unfold s. rewrite !dsum_app, (proj1 Bf). reflexivity.
  - intros i Hi. destruct i as [|i]; [lia|]. rewrite DS by lia. pose proof (proj2 Bf i). lia.
  - lia.
  - lia.
  - change (1 + length a)%nat with (S (length a)). rewrite DS by lia. rewrite E, D_app1, D_all, (proj1 Ba) by lia. reflexivity.
  - replace (1 + length a + 1)%nat with (S (length a + 1)) by lia. rewrite DS by lia. rewrite E, app_assoc, D_app1 by (rewrite app_length; cbn; lia).
    rewrite D_all by (rewrite app_length; cbn; lia). rewrite dsum_app, (proj1 Ba). reflexivity.
Qed.
Lemma removePars_print t : wf t -> removePars (print t) = Some (inner t).
Proof. intros H. destruct H; [apply removePars_leaf; auto|apply removePars_node; auto]. Qed.

(** ** The main loop *)
Lemma loop_plain s : forallb plain s = true -> forall rest acc n res,
  split_loop (s ++ rest) acc n res = split_loop rest (acc ++ s) n res.
Proof.
  induction s as [|c s IH]; intros H rest acc n res; [rewrite app_nil_r; reflexivity|].
  cbn [forallb] in H. apply andb_true_iff in H as [H1 H2]. unfold plain in H1. rewrite negb_true_iff, !orb_false_iff in H1.
  destruct H1 as [[[A1 A2] A3] A4]. cbn [app split_loop]. rewrite A4, A3, A2, A1. cbn [andb]. rewrite IH by auto.
  rewrite <- app_assoc. reflexivity.
Qed.
Lemma loop_comma_deep rest acc n res : n <> 0 -> split_loop (COMMA :: rest) acc n res = split_loop rest (acc ++ [COMMA]) n res.
Proof. intros H. cbn [split_loop]. change (isspace COMMA) with false. apply Z.eqb_neq in H. rewrite H. reflexivity. Qed.
Lemma loop_join l : Forall (fun s => forall rest acc n res, 0 <= n -> split_loop (s ++ rest) acc n res = split_loop rest (acc ++ s) n res) l ->
  forall rest acc n res, 0 < n -> split_loop (join l ++ rest) acc n res = split_loop rest (acc ++ join l) n res.
Proof.
  induction 1 as [|x l Hx Hl IH]; intros rest acc n res Hn; [rewrite app_nil_r; reflexivity|].
  destruct l as [|y l]; [cbn; apply Hx; lia|].
  change (join (x :: y :: l)) with (x ++ COMMA :: join (y :: l)). rewrite <- app_assoc, Hx by lia.
  cbn [app]. rewrite loop_comma_deep by lia. rewrite IH by auto. rewrite <- !app_assoc. reflexivity.
Qed.
Lemma loop_print t : wf t -> forall rest acc n res, 0 <= n ->
  split_loop (print t ++ rest) acc n res = split_loop rest (acc ++ print t) n res.
Proof.
  intros H. induction H using wf_ind2; intros rest acc n res Hn; [apply loop_plain; auto|].
  cbn [print]. rewrite <- !app_assoc. cbn [app split_loop]. change (isspace LP) with false. change (LP =? COMMA) with false.
  cbn [andb]. change (LP =? LP) with true. change (LP =? RP) with false. cbv iota.
  rewrite loop_join by (try lia; clear -H1; induction H1; constructor; auto).
  cbn [split_loop]. change (isspace RP) with false. change (RP =? COMMA) with false. change (RP =? LP) with false. change (RP =? RP) with true. cbn [andb].
  rewrite <- !app_assoc. cbn [app]. f_equal. lia.
Qed.
Lemma loop_forest cs : cs <> [] -> Forall wf cs -> forall res,
  split_loop (join (map print cs)) [] 0 res = Some (res ++ map inner cs).
Proof.
  intros N F. induction F as [|t cs Ht F IH]; [congruence|]. intros res. destruct cs as [|t' cs].
  - cbn [map join]. rewrite <- (app_nil_r (print t)), loop_print by (auto; lia). cbn [app split_loop].
    rewrite removePars_print by auto. reflexivity.
  - change (join (map print (t :: t' :: cs))) with (print t ++ COMMA :: join (map print (t' :: cs))).
    rewrite loop_print by (auto; lia). cbn [app split_loop]. change (isspace COMMA) with false. change (COMMA =? COMMA) with true.
    cbn [andb Z.eqb]. rewrite removePars_print by auto. rewrite IH by discriminate. rewrite <- app_assoc. reflexivity.
Qed.

Lemma split_forest f cs : (2 <= length cs)%nat -> Forall wf cs -> splitParStr (S f) (join (map print cs)) = Ok (map inner cs).
Proof.
  intros L F. cbn [splitParStr]. assert (N : cs <> []) by (intros ->; cbn in L; lia). rewrite loop_forest by auto.
  destruct cs as [|t [|t' cs]]; cbn in L; try lia. reflexivity.
Qed.
Lemma split_node f cs : (2 <= length cs)%nat -> Forall wf cs -> splitParStr (S (S f)) (print (Node cs)) = Ok (map inner cs).
Proof.
  intros L F. cbn [splitParStr]. pose proof (wf_node cs L F) as W.
  rewrite <- (app_nil_r (print (Node cs))), loop_print by (auto; lia). rewrite app_nil_l. cbn [split_loop].
  rewrite removePars_node by auto. cbn [app]. rewrite removePars_forest by auto. exact (split_forest f cs L F).
Qed.
(** white space is ignored *)
Lemma loop_space s : forall acc n res, split_loop s acc n res = split_loop (filter (fun c => negb (isspace c)) s) acc n res.
Proof.
  induction s as [|c s IH]; intros; [reflexivity|]. cbn [filter]. destruct (isspace c) eqn:E; cbn [negb].
  - cbn [split_loop]. rewrite E. apply IH.
  - cbn [split_loop]. rewrite E. destruct ((c =? COMMA) && (n =? 0)); [destruct (removePars acc); [apply IH|reflexivity]|apply IH].
Qed.
Lemma split_space f s : splitParStr f s = splitParStr f (filter (fun c => negb (isspace c)) s).
Proof. destruct f; [reflexivity|]. cbn [splitParStr]. rewrite loop_space. reflexivity. Qed.

(** ** Texts without any comma never give a result *)
Lemma In_firstn (A : Type) k (l : list A) x : In x (firstn k l) -> In x l.
Proof. intros H. rewrite <- (firstn_skipn k l). apply in_or_app. auto. Qed.
Lemma In_skipn (A : Type) k (l : list A) x : In x (skipn k l) -> In x l.
Proof. intros H. rewrite <- (firstn_skipn k l). apply in_or_app. auto. Qed.
Lemma removePars_sub s a : removePars s = Some a -> forall c, In c a -> In c s.
Proof.
  unfold removePars. generalize (Z.of_nat (count_pars (S (length s)) 0 s) +
    scan (firstn (length s - count_pars (S (length s)) 0 s * 2 - count_pars (S (length s)) 0 s) (skipn (count_pars (S (length s)) 0 s) s)) 0 0).
  intros k E c Hc. destruct (k <? 0); [discriminate|]. destruct (_ <? _)%nat; [discriminate|]. injection E as <-.
  apply In_firstn, In_skipn in Hc. exact Hc.
Qed.
Lemma loop_no_comma s : ~ In COMMA s -> forall acc n res, ~ In COMMA acc ->
  match split_loop s acc n res with Some l => exists a, l = res ++ [a] /\ ~ In COMMA a | None => True end.
Proof.
  induction s as [|c s IH]; intros N acc n res Na; cbn [split_loop].
  - destruct (removePars acc) as [a|] eqn:E; [|exact I]. exists a. split; [reflexivity|]. intros H. apply Na, (removePars_sub _ _ E), H.
  - assert (Ns : ~ In COMMA s) by (intros H; apply N; right; exact H).
    assert (Nc : c <> COMMA) by (intros H; apply N; left; exact H).
    destruct (isspace c); [apply IH; auto|]. apply Z.eqb_neq in Nc as Ec. rewrite Ec. cbn [andb].
    apply IH; auto. intros H. apply in_app_or in H. destruct H as [H|[H|[]]]; auto.
Qed.
Lemma split_no_comma f : forall s, ~ In COMMA s -> forall l, splitParStr f s <> Ok l.
Proof.
  induction f as [|f IH]; intros s N l; cbn [splitParStr]; [discriminate|].
  pose proof (loop_no_comma s N [] 0 [] ltac:(intros [])) as H.
  destruct (split_loop s [] 0 []) as [r|]; [|discriminate]. destruct H as (a & -> & Na). cbn [app].
  destruct (removePars a) as [y|] eqn:E; [|discriminate]. apply IH. intros H. apply Na, (removePars_sub _ _ E), H.
Qed.
Lemma split_plain_diverges s : forallb plain s = true -> forall f, splitParStr f s = Running.
Proof.
  intros H f. induction f as [|f IH]; [reflexivity|]. cbn [splitParStr].
  rewrite <- (app_nil_r s), loop_plain by auto. cbn [split_loop]. rewrite app_nil_l, removePars_leaf by auto. cbn [app].
  rewrite removePars_leaf by auto. exact IH.
Qed.
(** ** Termination is decided by the first length + 1 calls *)
Lemma loop_len s : forall acc n res l, split_loop s acc n res = Some l -> (length res < length l)%nat.
Proof.
  induction s as [|c s IH]; intros acc n res l E; cbn [split_loop] in E.
  - destruct (removePars acc); [|discriminate]. injection E as <-. rewrite app_length. cbn. lia.
  - destruct (isspace c); [eapply IH; eauto|]. destruct ((c =? COMMA) && (n =? 0)); [|eapply IH; eauto].
    destruct (removePars acc); [|discriminate]. apply IH in E. rewrite app_length in E. cbn in E. lia.
Qed.
Lemma loop_single s : forall acc n x, split_loop s acc n [] = Some [x] ->
  removePars (acc ++ filter (fun c => negb (isspace c)) s) = Some x.
Proof.
  induction s as [|c s IH]; intros acc n x E; cbn [split_loop filter] in *.
  - rewrite app_nil_r. destruct (removePars acc); [|discriminate]. cbn in E. congruence.
  - destruct (isspace c); cbn [negb]; [eapply IH; eauto|].
    destruct ((c =? COMMA) && (n =? 0)).
    + destruct (removePars acc); [|discriminate]. apply loop_len in E. cbn in E. lia.
    + apply IH in E. rewrite <- app_assoc in E. exact E.
Qed.
Lemma filter_length_le (f : Z -> bool) l : (length (filter f l) <= length l)%nat /\ (length (filter f l) = length l -> filter f l = l).
Proof.
  induction l as [|c l [IH1 IH2]]; [split; auto|]. cbn [filter]. destruct (f c); cbn [length]; [|split; [lia|intros; lia]].
  split; [lia|]. intros H. f_equal. apply IH2. lia.
Qed.
Lemma removePars_length s a : removePars s = Some a -> (length a <= length s)%nat /\ (length a = length s -> a = s).
Proof.
  unfold removePars. generalize (Z.of_nat (count_pars (S (length s)) 0 s) +
    scan (firstn (length s - count_pars (S (length s)) 0 s * 2 - count_pars (S (length s)) 0 s) (skipn (count_pars (S (length s)) 0 s) s)) 0 0).
  intros k E. destruct (k <? 0); [discriminate|]. destruct (_ <? _)%nat eqn:G; [discriminate|]. apply Nat.ltb_ge in G. injection E as <-.
  rewrite firstn_length, skipn_length in *. split; [lia|]. intros H.
  destruct (Nat.eq_dec (Z.to_nat k) 0) as [->|]; [|].
  - cbn [skipn]. rewrite firstn_all2 by lia. reflexivity.
  - assert (length s = 0)%nat by lia. destruct s; [|discriminate]. rewrite skipn_nil, firstn_nil. reflexivity.
Qed.
Lemma split_dichotomy s : splitParStr (S (length s)) s <> Running \/ forall f, splitParStr f s = Running.
Proof.
  assert (G : forall k s, (length s < k)%nat -> splitParStr k s <> Running \/ forall f, splitParStr f s = Running).
  { clear s. induction k as [|k IH]; intros s L; [lia|].
    destruct (split_loop s [] 0 []) as [[|x [|x' l]]|] eqn:E.
    - apply loop_len in E. cbn in E. lia.
    - destruct (removePars x) as [y|] eqn:Ey.
      2:{ left. cbn [splitParStr]. rewrite E, Ey. discriminate. }
      pose proof (loop_single s [] 0 x E) as Ex. cbn [app] in Ex.
      destruct (removePars_length _ _ Ex) as [L1 Q1]. destruct (removePars_length _ _ Ey) as [L2 Q2].
      destruct (filter_length_le (fun c => negb (isspace c)) s) as [L3 Q3].
      assert (ST : forall f, splitParStr (S f) s = splitParStr f y) by (intros f; cbn [splitParStr]; rewrite E, Ey; reflexivity).
      destruct (Nat.eq_dec (length y) (length s)) as [Eq|Ne].
      + assert (y = s). { rewrite Q2, Q1, Q3 by lia. reflexivity. } subst y.
        right. induction f as [|f IHf]; [reflexivity|]. rewrite ST. exact IHf.
      + destruct (IH y ltac:(lia)) as [H|H]; [left|right].
        * rewrite ST. exact H.
        * intros [|f]; [reflexivity|]. rewrite ST. apply H.
    - left. cbn [splitParStr]. rewrite E. discriminate.
    - left. cbn [splitParStr]. rewrite E. discriminate. }
  apply G. lia.
Qed.
