(** A tactic for equations in abelian groups, with integer multiples. *)
From Coq Require Import ZArith List Lia.
From Verif Require Import Group.
Import ListNotations.
Open Scope Z_scope.

Inductive gexp := GV (n : nat) | GA (a b : gexp) | GN (a : gexp) | G0 | GM (k : Z) (a : gexp).
Fixpoint gint {A : abgroup} (env : list A) (e : gexp) : A :=
  match e with
  | GV n => nth n env gzero | GA a b => gadd (gint env a) (gint env b) | GN a => gneg (gint env a) | G0 => gzero | GM k a => zmul k (gint env a)
  end.
Fixpoint coef (e : gexp) (n : nat) : Z :=
  match e with
  | GV m => if Nat.eqb m n then 1 else 0 | GA a b => coef a n + coef b n | GN a => - coef a n | G0 => 0 | GM k a => k * coef a n
  end.
Definition lin {A : abgroup} (env : list A) (c : nat -> Z) : A := gsum (map (fun n => zmul (c n) (nth n env gzero)) (seq 0 (length env))).
Lemma lin_delta {A : abgroup} (env : list A) m : lin env (fun n => if Nat.eqb m n then 1 else 0) = nth m env gzero.
Proof.
  unfold lin. assert (H : forall k s, gsum (map (fun n => zmul (if Nat.eqb m n then 1 else 0) (nth n env gzero)) (seq s k)) =
    if andb (Nat.leb s m) (Nat.ltb m (s + k)) then nth m env gzero else gzero).
  { induction k as [|k IH]; intros s.
    - destruct (Nat.leb_spec s m), (Nat.ltb_spec m (s + 0)); try reflexivity; lia.
    - cbn [seq map gsum fold_right]. fold (@gsum A). specialize (IH (S s)). unfold gsum in IH at 1. rewrite IH. clear IH.
      destruct (Nat.eqb_spec m s) as [->|N].
      + rewrite zmul_1. destruct (Nat.leb_spec (S s) s); [lia|]. destruct (Nat.leb_spec s s); [|lia]. destruct (Nat.ltb_spec s (s + S k)); [|lia]. cbn. apply gadd_0_r.
      + rewrite zmul_0, gadd_0_l. replace (S s + k)%nat with (s + S k)%nat by lia.
        destruct (Nat.leb_spec (S s) m), (Nat.leb_spec s m); try lia; reflexivity. }
  rewrite H. cbn [Nat.leb andb plus]. destruct (Nat.ltb_spec m (length env)); [reflexivity|]. symmetry. apply nth_overflow. lia.
Qed.
Lemma gint_lin {A : abgroup} (env : list A) e : gint env e = lin env (coef e).
Proof.
  induction e as [m|a IHa b IHb|a IH| |k a IH]; cbn [gint coef].
  - symmetry. apply lin_delta.
  - rewrite IHa, IHb. unfold lin. rewrite <- gsum_map_gadd. f_equal. apply map_ext. intros n. symmetry. apply zmul_add.
  - rewrite IH. symmetry. apply gneg_unique. unfold lin. rewrite <- gsum_map_gadd. rewrite <- (gsum_zeros _ (seq 0 (length env))). f_equal. apply map_ext.
    intros n. rewrite zmul_neg. apply gadd_neg.
  - unfold lin. symmetry. rewrite <- (gsum_zeros _ (seq 0 (length env))). f_equal.
  - rewrite IH. unfold lin. rewrite <- gsum_zmul, map_map. f_equal. apply map_ext. intros n. apply zmul_zmul.
Qed.
Fixpoint all_coef (e1 e2 : gexp) (n : nat) : Prop := match n with O => True | S n => coef e1 n = coef e2 n /\ all_coef e1 e2 n end.
Lemma all_coef_lt e1 e2 n : all_coef e1 e2 n -> forall m, (m < n)%nat -> coef e1 m = coef e2 m.
Proof. induction n as [|n IH]; cbn; [lia|]. intros [H1 H2] m Hm. destruct (Nat.eq_dec m n) as [->|]; [exact H1|]. apply IH; [exact H2|lia]. Qed.
Lemma gexp_eq {A : abgroup} (env : list A) e1 e2 : all_coef e1 e2 (length env) -> gint env e1 = gint env e2.
Proof.
  intros H. rewrite !gint_lin. unfold lin. f_equal. apply map_ext_in. intros n Hn. apply in_seq in Hn. rewrite (all_coef_lt _ _ _ H n) by lia. reflexivity.
Qed.
Ltac g_mem x l := match l with | nil => constr:(false) | x :: _ => constr:(true) | _ :: ?l => g_mem x l end.
Ltac g_atoms e l :=
  match e with
  | gadd ?a ?b => let l := g_atoms a l in g_atoms b l
  | gneg ?a => g_atoms a l
  | gzero => l
  | zmul _ ?a => g_atoms a l
  | _ => match g_mem e l with true => l | false => constr:(e :: l) end
  end.
Ltac g_idx x l := match l with | x :: _ => constr:(O) | _ :: ?l => let n := g_idx x l in constr:(S n) end.
Ltac g_reify e l :=
  match e with
  | gadd ?a ?b => let a := g_reify a l in let b := g_reify b l in constr:(GA a b)
  | gneg ?a => let a := g_reify a l in constr:(GN a)
  | gzero => constr:(G0)
  | zmul ?k ?a => let a := g_reify a l in constr:(GM k a)
  | _ => let n := g_idx e l in constr:(GV n)
  end.
(** reduces the goal to one integer equation per atom, solved by ring *)
Ltac agroup_pre :=
  match goal with |- @eq ?T ?x ?y =>
    let A := match T with car ?A => A end in
    let l := g_atoms x (@nil (car A)) in let l := g_atoms y l in
    let ex := g_reify x l in let ey := g_reify y l in
    change (gint l ex = gint l ey); apply gexp_eq; cbn [length all_coef coef Nat.eqb]; repeat split
  end.
Ltac agroup := agroup_pre; ring.
Example agroup_ex (A : abgroup) (x y z : A) k : gadd (zmul k (gadd x y)) (gneg (gadd y z)) = gadd (zmul (k - 1) y) (gadd (gneg z) (zmul k x)).
Proof. agroup. Qed.
