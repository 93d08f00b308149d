(** Facts on the x86-64 copyn. *)
From Coq Require Import ZArith List Bool Arith Lia.
From Verif Require Import Limbs LimbsFacts X86 X86Sim X86Call X86Copyn.
Open Scope Z_scope.
Lemma next8 x : x mod 8 = 0 -> ((x + 8) mod B) mod 8 = 0.
Proof. intros H. rewrite <- (Znumtheory.Zmod_div_mod 8 B); [|lia|reflexivity|exists (2 ^ 61); reflexivity]. rewrite Z.add_mod, H by lia. reflexivity. Qed.
(** the words moved by rep movsq *)
Definition moved (k : nat) (s d : Z) (f g : Z -> Z) : Prop :=
  (forall j, 0 <= j < Z.of_nat k -> g (d + 8 * j) = f (s + 8 * j)) /\ (forall x, ~ (d <= x < d + 8 * Z.of_nat k) -> g x = f x).
Lemma rep_ok k : forall m, words m -> regs m RSI mod 8 = 0 -> regs m RDI mod 8 = 0 -> regs m RSI + 8 * Z.of_nat k <= B -> regs m RDI + 8 * Z.of_nat k <= B ->
  (regs m RDI <= regs m RSI \/ regs m RSI + 8 * Z.of_nat k <= regs m RDI) ->
  exists m', rep_movsq k m = Some m' /\ words m' /\ moved k (regs m RSI) (regs m RDI) (mem m) (mem m') /\ (forall r, r <> RSI -> r <> RDI -> r <> RCX -> regs m' r = regs m r).
Proof.
  induction k as [|k IH]; intros m W A1 A2 R1 R2 O.
  - exists m. split; [reflexivity|]. split; [exact W|]. split; [split; [intros j H; lia|reflexivity]|reflexivity].
  - cbn [rep_movsq]. unfold movsq. rewrite A1, A2. cbn [Z.eqb andb]. cbn [regs fl mem]. destruct W as (W1 & W2). set (s := regs m RSI) in *. set (d := regs m RDI) in *. pose proof (W1 RSI) as S0. pose proof (W1 RDI) as D0. fold s in S0. fold d in D0.
    destruct k as [|k'].
    + eexists. split; [reflexivity|]. split; [split; cbn [regs mem]|split; [split; cbn [mem]|]].
      * intros r. unfold rupd. repeat (destruct (reg_eqb _ _); [apply Z.mod_pos_bound; reflexivity|]). apply W1.
      * intros x. unfold mupd. destruct (x =? d); apply W2.
      * intros j Hj. replace j with 0 by lia. rewrite Z.mul_0_r, !Z.add_0_r. apply mupd_eq.
      * intros x Hx. apply mupd_neq. lia.
      * intros r H1 H2 H3. cbn [regs]. rewrite !rupd_neq by congruence. reflexivity.
    + assert (E1 : (s + 8) mod B = s + 8) by (apply Z.mod_small; lia). assert (E2 : (d + 8) mod B = d + 8) by (apply Z.mod_small; lia).
      match goal with |- context [rep_movsq (S k') ?M] => set (m1 := M) end.
      assert (Q1 : regs m1 RSI = s + 8) by (unfold m1; cbn [regs]; unfold rupd; cbn [reg_eqb]; exact E1). assert (Q2 : regs m1 RDI = d + 8) by (unfold m1; cbn [regs]; unfold rupd; cbn [reg_eqb]; exact E2).
      destruct (IH m1) as (m' & E & W' & (M1 & M2) & R).
      * split; unfold m1; cbn [regs mem]; [intros r; unfold rupd; repeat (destruct (reg_eqb _ _); [apply Z.mod_pos_bound; reflexivity|]); apply W1|intros x; unfold mupd; destruct (x =? d); apply W2].
      * rewrite Q1, <- E1. apply next8, A1.
      * rewrite Q2, <- E2. apply next8, A2.
      * rewrite Q1. lia.
      * rewrite Q2. lia.
      * rewrite Q1, Q2. lia.
      * rewrite ?Q1, ?Q2 in M1; rewrite ?Q2 in M2. exists m'. split; [exact E|]. split; [exact W'|]. split; [split|].
        -- intros j Hj. destruct (Z.eq_dec j 0) as [->|N].
           ++ rewrite Z.mul_0_r, !Z.add_0_r. rewrite M2 by lia. unfold m1. cbn [mem]. apply mupd_eq.
           ++ replace (d + 8 * j) with (d + 8 + 8 * (j - 1)) by lia. rewrite M1 by lia. unfold m1. cbn [mem]. rewrite mupd_neq by lia. f_equal. lia.
        -- intros x Hx. rewrite M2 by lia. unfold m1. cbn [mem]. apply mupd_neq. lia.
        -- intros r H1 H2 H3. rewrite R by assumption. unfold m1. cbn [regs]. rewrite !rupd_neq by congruence. reflexivity.
Qed.
(** [k] words are copied, where [k] is the product modulo 2^64 *)
Section Copy.
Variable n : nat.
Variable m : mach.
Hypothesis N : Z.of_nat n + 1 < B.
Notation k := ((Z.of_nat n + 1) * regs m RDX mod B).
Notation s := (regs m RSI).
Notation d := (regs m RDI).
Hypothesis W : words m.
Hypothesis A1 : s mod 8 = 0.
Hypothesis A2 : d mod 8 = 0.
Hypothesis R1 : s + 8 * k <= B.
Hypothesis R2 : d + 8 * k <= B.
Hypothesis O : d <= s \/ s + 8 * k <= d.
Hypothesis SP : ~ (d <= regs m RSP < d + 8 * k).
Lemma copyn_ok : exists m', f_copyn n m = Some m' /\ words m' /\ (forall j, 0 <= j < k -> mem m' (d + 8 * j) = mem m (s + 8 * j)) /\ (forall x, ~ (d <= x < d + 8 * k) -> mem m' x = mem m x) /\
  (forall r, r <> RAX -> r <> RCX -> r <> RDX -> r <> R8 -> r <> R9 -> r <> RSP -> regs m' r = regs m r) /\ regs m' RSP = (regs m RSP + 8) mod B.
Proof.
  destruct W as (W1 & W2). pose proof (Z.mod_pos_bound ((Z.of_nat n + 1) * regs m RDX) B ltac:(reflexivity)) as K. set (kk := k) in *. pose proof (W1 RDX) as RX.
  assert (H1 : (Z.of_nat n + 1) * regs m RDX / B < B) by (apply Z.div_lt_upper_bound; [reflexivity|nia]). assert (H0 : 0 <= (Z.of_nat n + 1) * regs m RDX / B) by (apply Z.div_pos; [nia|reflexivity]).
  unfold f_copyn, asm_copyn. rewrite Nat2Z.inj_add. change (Z.of_nat 1) with 1.
  match goal with |- context [rep_movsq _ ?M] => set (m1 := M) end.
  assert (Q1 : regs m1 RSI = s) by reflexivity. assert (Q2 : regs m1 RDI = d) by reflexivity. assert (Q3 : regs m1 RCX = kk) by reflexivity. assert (Q4 : mem m1 = mem m) by reflexivity.
  assert (QW : words m1).
  { split; [|exact W2]. intros r. unfold m1, set1, mul64. cbn [regs]. unfold rupd. destruct r; cbn [reg_eqb]; try apply W1; try exact K; lia. }
  destruct (rep_ok (Z.to_nat kk) m1 QW) as (m2 & E & (V1 & V2) & (M1 & M2) & R); rewrite ?Q1, ?Q2, ?Z2Nat.id by lia; try assumption.
  rewrite Q1, Q2, Q4, Z2Nat.id in M1 by lia. rewrite Q2, Q4, Z2Nat.id in M2 by lia. rewrite Q3, E. cbn [set1 mem regs].
  rewrite M2 by exact SP. rewrite Z.eqb_refl. eexists. split; [reflexivity|]. cbn [set1 mem regs].
  assert (P8 : regs m2 R8 = s) by (rewrite R by discriminate; reflexivity). assert (P9 : regs m2 R9 = d) by (rewrite R by discriminate; reflexivity).
  split; [split; cbn [regs mem]|split; [exact M1|split; [exact M2|split]]].
  - intros r. unfold set1, rupd. destruct r; cbn [regs reg_eqb]; first [apply V1|apply Z.mod_pos_bound; reflexivity].
  - exact V2.
  - intros r N1 N2 N3 N4 N5 N6. unfold set1, rupd. destruct r; try congruence; cbn [regs reg_eqb]; try exact P8; try exact P9; (rewrite R by discriminate; reflexivity).
  - unfold rupd. cbn [reg_eqb]. reflexivity.
Qed.
End Copy.
