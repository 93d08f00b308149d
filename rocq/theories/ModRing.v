(** Equalities modulo q by removing inner reductions and calling [ring]. *)
From Coq Require Import ZArith Zdiv Lia.
Open Scope Z_scope.

Lemma cg_add q x x' y y' : x mod q = x' mod q -> y mod q = y' mod q -> (x + y) mod q = (x' + y') mod q.
Proof. intros H1 H2. rewrite Zplus_mod, H1, H2, <- Zplus_mod. reflexivity. Qed.
Lemma cg_sub q x x' y y' : x mod q = x' mod q -> y mod q = y' mod q -> (x - y) mod q = (x' - y') mod q.
Proof. intros H1 H2. rewrite Zminus_mod, H1, H2, <- Zminus_mod. reflexivity. Qed.
Lemma cg_mul q x x' y y' : x mod q = x' mod q -> y mod q = y' mod q -> (x * y) mod q = (x' * y') mod q.
Proof. intros H1 H2. rewrite Zmult_mod, H1, H2, <- Zmult_mod. reflexivity. Qed.
Lemma cg_opp q x x' : x mod q = x' mod q -> (- x) mod q = (- x') mod q.
Proof. intros H1. rewrite <- (Z.sub_0_l x), <- (Z.sub_0_l x'). apply cg_sub; auto. Qed.
Lemma cg_mod q x x' : x mod q = x' mod q -> (x mod q) mod q = x' mod q.
Proof. intros H1. rewrite Zmod_mod. exact H1. Qed.

(** proves [A mod q = ?A' mod q] with A' free of reductions modulo q *)
Ltac cgr := lazymatch goal with
  | |- (_ + _) mod _ = _ => apply cg_add; cgr
  | |- (_ - _) mod _ = _ => apply cg_sub; cgr
  | |- (_ * _) mod _ = _ => apply cg_mul; cgr
  | |- (- _) mod _ = _ => apply cg_opp; cgr
  | |- (_ mod ?q) mod ?q = _ => apply cg_mod; cgr
  | |- _ => reflexivity
  end.
Ltac modring := etransitivity; [cgr|]; etransitivity; [|symmetry; cgr]; f_equal; ring.
