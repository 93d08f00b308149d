(** Properties C48, C49. *)
From Coq Require Import ZArith List Lia Bool.
From Verif Require Import Split SplitFacts Text TextFacts.
Import ListNotations.
Open Scope Z_scope.

(** ** C48.  [wf]: leaves are non-empty texts without brackets, commas and
    spaces, nodes have at least two children; [print] writes the nested tuple,
    [inner] is the text without the outer brackets.  White space can be added
    anywhere ([despace s] is the printed text). *)
Definition despace (s : str) : str := filter (fun c => negb (isspace c)) s.
Theorem C48_split : forall cs s f, (2 <= length cs)%nat -> Forall wf cs ->
  (despace s = print (Node cs) -> splitParStr (S (S f)) s = Ok (map inner cs)) /\
  (despace s = inner (Node cs) -> splitParStr (S f) s = Ok (map inner cs)).
Proof.
  intros cs s f L F. split; intros E; rewrite split_space; unfold despace in E; rewrite E; [apply split_node|apply split_forest]; auto.
Qed.
Print Assumptions C48_split.

Definition num (s : str) : Prop := s <> [] /\ forallb plain s = true.
Definition num2 (e : str * str) : Prop := num (fst e) /\ num (snd e).
Definition num6 (e : (str * str) * (str * str) * (str * str)) : Prop := let '(x, y, z) := e in num2 x /\ num2 y /\ num2 z.
Definition t2 (e : str * str) : tree := Node [Leaf (fst e); Leaf (snd e)].
Definition t6 (e : (str * str) * (str * str) * (str * str)) : tree := let '(x, y, z) := e in Node [t2 x; t2 y; t2 z].
Lemma wf_t2 e : num2 e -> wf (t2 e).
Proof. intros [[A B] [C D]]. apply wf_node; [cbn; lia|]. repeat constructor; auto. Qed.
Lemma wf_t6 e : num6 e -> wf (t6 e).
Proof. destruct e as [[x y] z]. intros (A & B & C). apply wf_node; [cbn; lia|]. repeat (apply Forall_cons; [apply wf_t2; auto|]). apply Forall_nil. Qed.
Lemma p2 e : F2_toString e = print (t2 e).
Proof. destruct e as [a b]. unfold F2_toString, tup2, t2. cbn [fst snd print map join]. rewrite <- !app_assoc. reflexivity. Qed.
Lemma p6 e : F6_toString e = print (t6 e).
Proof. destruct e as [[x y] z]. unfold F6_toString, tup3, t6. rewrite !p2. cbn [print map join]. rewrite <- !app_assoc. reflexivity. Qed.
Lemma two_parse f e : num2 e -> F2_fromString (S (S f)) (F2_toString e) = Ok e /\ F2_fromString (S f) (inner (t2 e)) = Ok e.
Proof.
  intros H. pose proof (wf_t2 e H) as W. inversion W as [|cs L F E]. subst. rewrite p2. unfold F2_fromString, from2.
  unfold t2 at 1. rewrite split_node by auto. unfold t2, inner. rewrite split_forest by auto. destruct e. split; reflexivity.
Qed.
Lemma six_parse f e : num6 e -> F6_fromString (S (S f)) (F6_toString e) = Ok e /\ F6_fromString (S f) (inner (t6 e)) = Ok e.
Proof.
  destruct e as [[x y] z]. intros H. pose proof (wf_t6 _ H) as W. destruct H as (A & B & C). inversion W as [|cs L F E]. subst. rewrite p6.
  unfold F6_fromString, from3. change (t6 (x, y, z)) with (Node [t2 x; t2 y; t2 z]). split.
  - rewrite split_node by auto. cbn [map bind].
    rewrite (proj2 (two_parse (S f) _ A)), (proj2 (two_parse (S f) _ B)), (proj2 (two_parse (S f) _ C)). reflexivity.
  - change (inner (Node [t2 x; t2 y; t2 z])) with (join (map print [t2 x; t2 y; t2 z])). rewrite split_forest by auto. cbn [map bind].
    rewrite (proj2 (two_parse f _ A)), (proj2 (two_parse f _ B)), (proj2 (two_parse f _ C)). reflexivity.
Qed.
(** Reading a printed element of the tower gives back the printed numbers. *)
Theorem C48_towers : forall f,
  (forall e, num2 e -> F2_fromString (S (S f)) (F2_toString e) = Ok e) /\
  (forall e, num6 e -> F6_fromString (S (S f)) (F6_toString e) = Ok e) /\
  (forall e, num6 (fst e) -> num6 (snd e) -> F12_fromString (S (S f)) (F12_toString e) = Ok e).
Proof.
  intros f. split; [intros e H; apply (two_parse f e H)|]. split; [intros e H; apply (six_parse f e H)|].
  intros [a b] H1 H2. cbn [fst snd] in *. unfold F12_fromString, from2, F12_toString. cbn [fst snd].
  assert (E : tup2 (F6_toString a) (F6_toString b) = print (Node [t6 a; t6 b])).
  { rewrite !p6. unfold tup2. cbn [print map join]. rewrite <- !app_assoc. reflexivity. }
  rewrite E, split_node; [|cbn; lia|repeat (apply Forall_cons; [apply wf_t6; auto|]); apply Forall_nil]. cbn [map bind].
  rewrite (proj2 (six_parse (S f) a H1)), (proj2 (six_parse (S f) b H2)). reflexivity.
Qed.
Print Assumptions C48_towers.
(** Printed numbers are such texts, in every radix. *)
Theorem C48_numbers : forall base v, 2 <= base <= 36 -> 0 <= v -> num (mpz_get_str base v).
Proof.
  intros base v Hb Hv. pose proof (get_str_numeral base v Hb Hv) as N. unfold numeral in N.
  destruct N as (N1 & N2 & _). split; [exact N1|]. apply forallb_forall. intros c Hc.
  rewrite Forall_forall in N2. destruct (N2 c Hc) as (d & Hd & E). unfold digit_char in E. unfold plain, isspace, LP, RP, COMMA.
  destruct (Z.ltb_spec d 10); lia.
Qed.
Print Assumptions C48_numbers.
(* "(( 1, 23),(4 ,5))" *)
Example C48_run : splitParStr 3 [40;40;32;49;44;32;50;51;41;44;40;52;32;44;53;41;41] = Ok [[49;44;50;51]; [52;44;53]].
Proof. vm_compute. reflexivity. Qed.
Example C48_hyp : wf (Node [Node [Leaf [49]; Leaf [50; 51]]; Leaf [52]]).
Proof. repeat (constructor; try (cbn; lia); try discriminate; try reflexivity). Qed.

(** ** C49.  False: a text without comma is split again and again. *)
Theorem C49_refuted : exists s, forall fuel, splitParStr fuel s = Running.
Proof. exists [53]. apply split_plain_diverges. reflexivity. Qed.
Print Assumptions C49_refuted.
(** What holds: without a comma there is never a result; in general the first
    length+1 nested calls decide; printed tuples always terminate (C48). *)
Theorem C49_no_comma_partial : forall s fuel l, ~ In COMMA s -> splitParStr fuel s <> Ok l.
Proof. intros s fuel l N. exact (split_no_comma fuel s N l). Qed.
Print Assumptions C49_no_comma_partial.
Theorem C49_dichotomy_partial : forall s, splitParStr (S (length s)) s <> Running \/ forall fuel, splitParStr fuel s = Running.
Proof. exact split_dichotomy. Qed.
Print Assumptions C49_dichotomy_partial.
Example C49_no_comma_hyp : ~ In COMMA [40; 53; 41] /\ splitParStr 3 [40; 53; 41] = Running /\ splitParStr 3 [49; 44; 50] = Ok [[49]; [50]].
Proof. split; [intros H; repeat (destruct H as [H|H]; try discriminate); exact H|]. split; reflexivity. Qed.
(** A text on which it throws: "())))". *)
Example C49_throw : splitParStr 3 [40; 41; 41; 41; 41] = Throw. Proof. reflexivity. Qed.
