(** Threads that share read-mostly cells: each thread uses its own cells and
    cells [ro] with known values, which it may overwrite with the same value. *)
From Coq Require Import ZArith List Bool Lia.
From Verif Require Import Par ParFacts.
Import ListNotations.

Section Own.
Variable V : Type.
Variable ro : addr -> Prop.
Variable rv : addr -> V.
Definition ro_ok (m : pmem V) : Prop := forall a, ro a -> m a = rv a.
Fixpoint good (own : addr -> Prop) (t : list (instr V)) (m : pmem V) : Prop :=
  match t with
  | [] => True
  | x :: t => (forall a, In a (srcs x) -> own a \/ ro a) /\ (own (dst x) \/ (ro (dst x) /\ fn x (map m (srcs x)) = rv (dst x))) /\ good own t (exec1 x m)
  end.
Definition agree (own : addr -> Prop) (m m' : pmem V) : Prop := forall a, own a \/ ro a -> m a = m' a.
Lemma exec1_same (x : instr V) m : exec1 x m (dst x) = fn x (map m (srcs x)). Proof. unfold exec1. apply pset_same. Qed.
Lemma exec1_other (x : instr V) m a : a <> dst x -> exec1 x m a = m a. Proof. intros N. unfold exec1. apply pset_other, N. Qed.
Lemma addr_dec (a b : addr) : {a = b} + {a <> b}.
Proof. destruct (addr_eqb a b) eqn:E; [left|right]; destruct (addr_eqb_spec a b); congruence. Qed.
Lemma agree_exec own x m m' : agree own m m' -> (forall a, In a (srcs x) -> own a \/ ro a) -> fn x (map m (srcs x)) = fn x (map m' (srcs x)) /\ agree own (exec1 x m) (exec1 x m').
Proof.
  intros A S. assert (E : map m (srcs x) = map m' (srcs x)) by (apply map_ext_in; intros a Ha; apply A, S, Ha). rewrite E. split; [reflexivity|]. intros a Ha.
  destruct (addr_dec a (dst x)) as [->|N]; [rewrite !exec1_same, E; reflexivity|]. rewrite !exec1_other by exact N. apply A, Ha.
Qed.
Lemma good_ext own t : forall m m', agree own m m' -> good own t m -> good own t m' /\ agree own (prun t m) (prun t m').
Proof.
  induction t as [|x t IH]; intros m m' A G; [split; [exact I|exact A]|]. destruct G as (S & D & G). destruct (agree_exec own x m m' A S) as [E A'].
  destruct (IH _ _ A' G) as [G' A'']. split; [|exact A'']. split; [exact S|]. split; [rewrite <- E; exact D|exact G'].
Qed.
Lemma good_app own t u : forall m, good own t m -> good own u (prun t m) -> good own (t ++ u) m.
Proof. induction t as [|x t IH]; intros m G H; [exact H|]. destruct G as (S & D & G). split; [exact S|]. split; [exact D|]. apply IH; [exact G|exact H]. Qed.
Lemma exec_ro (own : addr -> Prop) (x : instr V) m : ro_ok m -> (forall a, own a -> ro a -> False) -> (own (dst x) \/ (ro (dst x) /\ fn x (map m (srcs x)) = rv (dst x))) -> ro_ok (exec1 x m).
Proof.
  intros R DJ D a Ha. destruct (addr_dec a (dst x)) as [->|N]; [|rewrite exec1_other by exact N; apply R, Ha]. rewrite exec1_same. destruct D as [D|[_ D]]; [destruct (DJ _ D Ha)|exact D].
Qed.
Theorem own_run ts l : inter ts l -> forall (own : nat -> addr -> Prop) m,
  (forall k k' a, own k a -> own k' a -> k = k') -> (forall k a, own k a -> ro a -> False) -> ro_ok m ->
  (forall k t, nth_error ts k = Some t -> good (own k) t m) ->
  ro_ok (prun l m) /\ (forall k t a, nth_error ts k = Some t -> own k a -> prun l m a = prun t m a) /\
  (forall a, (forall k, (k < length ts)%nat -> ~ own k a) -> ~ ro a -> prun l m a = m a).
Proof.
  induction 1 as [ts H|pre x t post l H IH]; intros own m DJ DR R G.
  - split; [exact R|]. split; [|reflexivity]. intros k t a E _. rewrite Forall_forall in H. rewrite (H t); [reflexivity|]. eapply nth_error_In, E.
  - assert (G0 := G (length pre) (x :: t)). rewrite nth_error_app2, Nat.sub_diag in G0 by lia. specialize (G0 eq_refl). destruct G0 as (S & D & G0).
    assert (R1 : ro_ok (exec1 x m)) by (eapply exec_ro; [exact R|apply DR|exact D]).
    assert (AG : forall k, k <> length pre -> agree (own k) m (exec1 x m)).
    { intros k Nk a [Ha|Ha]; [|rewrite (R1 a Ha); apply R, Ha]. destruct (addr_dec a (dst x)) as [->|N]; [|rewrite exec1_other by exact N; reflexivity].
      destruct D as [D|[D _]]; [destruct (Nk (DJ _ _ _ Ha D))|destruct (DR _ _ Ha D)]. }
    assert (NT : forall k u, nth_error (pre ++ t :: post) k = Some u -> (k = length pre /\ u = t) \/ (k <> length pre /\ nth_error (pre ++ (x :: t) :: post) k = Some u)).
    { intros k u E. destruct (Nat.lt_trichotomy k (length pre)) as [L|[->|L]].
      - right. split; [lia|]. rewrite nth_error_app1 in * by lia. exact E.
      - left. rewrite nth_error_app2, Nat.sub_diag in E by lia. injection E as <-. auto.
      - right. split; [lia|]. rewrite nth_error_app2 in * by lia. destruct (k - length pre)%nat eqn:Q; [lia|]. exact E. }
    destruct (IH own (exec1 x m) DJ DR R1) as (I1 & I2 & I3).
    { intros k u E. destruct (NT k u E) as [[-> ->]|[Nk E']]; [exact G0|]. apply (good_ext (own k) u m _ (AG k Nk)), G, E'. }
    split; [exact I1|]. split.
    + intros k u a E Ha. change (prun (x :: l) m) with (prun l (exec1 x m)). destruct (Nat.eq_dec k (length pre)) as [->|Nk].
      * rewrite nth_error_app2, Nat.sub_diag in E by lia. injection E as <-. apply (I2 (length pre) t); [|exact Ha]. rewrite nth_error_app2, Nat.sub_diag by lia. reflexivity.
      * assert (E' : nth_error (pre ++ t :: post) k = Some u).
        { destruct (Nat.lt_ge_cases k (length pre)); [rewrite nth_error_app1 in * by lia; exact E|]. rewrite nth_error_app2 in * by lia. destruct (k - length pre)%nat eqn:Q; [lia|]. exact E. }
        rewrite (I2 k u a E' Ha). symmetry. apply (good_ext (own k) u m _ (AG k Nk) (G k u E)). left. exact Ha.
    + intros a No Nr. change (prun (x :: l) m) with (prun l (exec1 x m)). rewrite I3; [|intros k Hk; apply No; rewrite app_length in *; exact Hk|exact Nr].
      apply exec1_other. intros ->. destruct D as [D|[D _]]; [|exact (Nr D)]. apply (No (length pre)); [rewrite app_length; cbn; lia|exact D].
Qed.
End Own.
