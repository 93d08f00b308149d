(** The rows of the AArch64 Montgomery multiplication. *)
From Coq Require Import ZArith List Bool Lia.
From Verif Require Import Limbs Arm ArmFacts ArmRaw ArmCmp ArmZero ArmChain ArmMulChain ArmMulAB.
Import ListNotations.
Open Scope Z_scope.

Definition inclb (a b : list reg) : bool := forallb (fun t => isin t b) a.
Lemma inclb_ok a b : inclb a b = true -> forall t, ~ In t b -> ~ In t a.
Proof.
  unfold inclb. rewrite forallb_forall. intros H t N I. apply N. specialize (H t I). unfold isin in H.
  apply existsb_exists in H as (u & Iu & Eu). apply Nat.eqb_eq in Eu. now subst.
Qed.
Definition only (l : list reg) (m m' : mach) : Prop := same m m' /\ (forall t, ~ In t l -> xr m' t = xr m t).
Lemma only_trans l a b c : only l a b -> only l b c -> only l a c.
Proof. intros [S1 H1] [S2 H2]. split; [exact (same_trans _ _ _ S1 S2)|]. intros t Ht. rewrite H2, H1; auto. Qed.
Lemma only_weak l l' a b : (forall t, In t l -> In t l') -> only l a b -> only l' a b.
Proof. intros H [S K]. split; [exact S|]. intros t Ht. apply K. auto. Qed.
Lemma only_wr l m r v : In r l -> only l m (wr m r v).
Proof. intros H. split; [repeat split|]. intros t Ht. apply xr_ne. intros ->. auto. Qed.
Lemma only_refl l m : only l m m. Proof. split; [apply same_refl|auto]. Qed.

Definition deps (n : nat) (o : opr) : list reg := match snd o with Some b => [b] | None => map (ix (fst o)) (seq 0 n) end.
Lemma src_keep n o y l m m' : source n o y m -> only l m m' -> (forall t, In t (deps n o) -> ~ In t l) -> source n o y m'.
Proof.
  intros [H1 H2] [S K] D. split; [exact H1|]. unfold deps in D. destruct (snd o) as [b|].
  - destruct H2 as [R M]. rewrite (K b) by (apply D; left; reflexivity). split; [exact (same_room _ _ _ _ S R)|].
    destruct S as (-> & _). exact M.
  - intros j Hj. rewrite K by (apply D, in_seq_map; lia). apply H2, Hj.
Qed.

Section Row.
  Variables (lay : sym -> Z) (n : nat) (r1 : list reg) (bo qo : opr).
  Let r (i : nat) := ix r1 i. Let sr (i : nat) := ix r1 (i + 1).
  Let t75 (i : nat) := ix (cyclicCopy [7; 5]%nat n) i. Let t73 (i : nat) := ix (cyclicCopy [7; 3]%nat n) i.
  Definition wk : list reg := (match snd bo with Some _ => fst bo | None => [] end) ++ (match snd qo with Some _ => fst qo | None => [] end).
  Definition wA : list reg := 7%nat :: 5%nat :: 8%nat :: r1 ++ wk.
  Definition wQ : list reg := 7%nat :: 3%nat :: 8%nat :: r1 ++ wk.
  Definition wAll : list reg := 7%nat :: 5%nat :: 3%nat :: 8%nat :: r1 ++ wk.
  Definition nodup1 : bool := forallb (fun i => forallb (fun j => negb (Nat.eqb (ix r1 i) (ix r1 j))) (seq 0 i)) (seq 0 (n + 1)).
  Definition chkRow : bool :=
    Nat.eqb (length r1) (n + 1) && absafes n r1 bo 3%nat && inclb (abtouched n r1 bo) wA &&
    msafes n r sr r bo 3%nat && inclb (mtouched n r r bo) wA &&
    msafes n t75 sr sr bo 3%nat && inclb (mtouched n t75 sr bo) wA &&
    msafes n t73 r r qo 5%nat && inclb (mtouched n t73 r qo) wQ &&
    msafes n t73 sr sr qo 5%nat && inclb (mtouched n t73 sr qo) wQ &&
    disj (deps n bo ++ deps n qo ++ [0; 1; 4; 6]%nat) wAll && disj [3%nat] wA && disj [5%nat] wQ && nodup1 && disj r1 [3; 5; 7; 8; 31]%nat &&
    disj [8%nat; ix r1 n; 5%nat] (mtouched n r r bo) && disj [8%nat; ix r1 0] (mtouched n t75 sr bo) &&
    disj [8%nat; ix r1 n] (mtouched n t73 r qo) && disj [8%nat; ix r1 0] (mtouched n t73 sr qo).
  Hypothesis Hn : (0 < n)%nat.
  Hypothesis Hchk : chkRow = true.

  Definition rb (m : mach) : Prop := forall j, (j <= n)%nat -> 0 <= xr m (ix r1 j) < B.
  Definition val (m : mach) : Z := sm (fun j => xr m (ix r1 j)) (S n).
  Definition shv (m : mach) : Z := sm (fun j => xr m (ix r1 (j + 1))) n.
  Lemma val_sh m : val m = xr m (ix r1 0) + B * shv m.
  Proof. unfold val, shv. rewrite sm_shift. do 2 f_equal. apply sm_ext. intros j _. do 2 f_equal. lia. Qed.
  Lemma val_top m : val m = sm (fun j => xr m (ix r1 j)) n + xr m (ix r1 n) * B ^ Z.of_nat n.
  Proof. reflexivity. Qed.

  Lemma rin j : (j <= n)%nat -> In (ix r1 j) r1.
  Proof. intros Hj. apply nth_In. unfold chkRow in Hchk. repeat (apply andb_prop in Hchk as [Hchk ?]). apply Nat.eqb_eq in Hchk. lia. Qed.
  Lemma rdist i j : (i <= n)%nat -> (j <= n)%nat -> i <> j -> ix r1 i <> ix r1 j.
  Proof.
    intros Hi Hj N. unfold chkRow in Hchk. repeat (apply andb_prop in Hchk as [Hchk ?]).
    assert (D : forall a c, (c < a)%nat -> (a <= n)%nat -> ix r1 a <> ix r1 c).
    { intros a c Hc Ha. match goal with H : nodup1 = true |- _ => unfold nodup1 in H; rewrite forallb_forall in H; specialize (H a ltac:(apply in_seq; lia)); rewrite forallb_forall in H; specialize (H c ltac:(apply in_seq; lia)); apply negb_true_iff, Nat.eqb_neq in H; exact H end. }
    destruct (Nat.lt_ge_cases i j); [intros Q; apply (D j i); auto|apply D; lia].
  Qed.
  Lemma rspec j t : (j <= n)%nat -> In t [3; 5; 7; 8; 31]%nat -> ix r1 j <> t.
  Proof.
    intros Hj Ht Q. pose proof (rin j Hj) as I. unfold chkRow in Hchk. repeat (apply andb_prop in Hchk as [Hchk ?]).
    match goal with H : disj r1 [3; 5; 7; 8; 31]%nat = true |- _ => apply (disj_ok _ _ H _ I) end. now rewrite Q.
  Qed.
  Ltac split_chk := pose proof Hchk as HC; unfold chkRow in HC; repeat (apply andb_prop in HC as [HC ?]).


  Record facts : Prop := {
    f_ab : absafes n r1 bo 3%nat = true; f_abi : inclb (abtouched n r1 bo) wA = true;
    f_p1 : msafes n r sr r bo 3%nat = true; f_p1i : inclb (mtouched n r r bo) wA = true;
    f_p2 : msafes n t75 sr sr bo 3%nat = true; f_p2i : inclb (mtouched n t75 sr bo) wA = true;
    f_q1 : msafes n t73 r r qo 5%nat = true; f_q1i : inclb (mtouched n t73 r qo) wQ = true;
    f_q2 : msafes n t73 sr sr qo 5%nat = true; f_q2i : inclb (mtouched n t73 sr qo) wQ = true;
    f_dep : disj (deps n bo ++ deps n qo ++ [0; 1; 4; 6]%nat) wAll = true;
    f_3 : ~ In 3%nat wA; f_5 : ~ In 5%nat wQ;
    f_k1 : forall t, In t [8%nat; ix r1 n; 5%nat] -> ~ In t (mtouched n r r bo);
    f_k2 : forall t, In t [8%nat; ix r1 0] -> ~ In t (mtouched n t75 sr bo);
    f_k3 : forall t, In t [8%nat; ix r1 n] -> ~ In t (mtouched n t73 r qo);
    f_k4 : forall t, In t [8%nat; ix r1 0] -> ~ In t (mtouched n t73 sr qo) }.
  Lemma facts_ok : facts.
  Proof.
    split_chk. constructor; auto; try (apply disj_ok; assumption).
    - match goal with H : disj [3%nat] wA = true |- _ => apply (disj_ok _ _ H); left; reflexivity end.
    - match goal with H : disj [5%nat] wQ = true |- _ => apply (disj_ok _ _ H); left; reflexivity end.
  Qed.
  Let F := facts_ok.
  Lemma dep_b t : In t (deps n bo) -> ~ In t wAll.
  Proof. intros H. apply (disj_ok _ _ (f_dep F)). apply in_or_app. auto. Qed.
  Lemma dep_q t : In t (deps n qo) -> ~ In t wAll.
  Proof. intros H. apply (disj_ok _ _ (f_dep F)). apply in_or_app. right. apply in_or_app. auto. Qed.
  Lemma dep_x t : In t [0; 1; 4; 6]%nat -> ~ In t wAll.
  Proof. intros H. apply (disj_ok _ _ (f_dep F)). apply in_or_app. right. apply in_or_app. auto. Qed.
  Lemma inA t : In t wA -> In t wAll. Proof. unfold wA, wAll. cbn [In]. tauto. Qed.
  Lemma inQ t : In t wQ -> In t wAll. Proof. unfold wQ, wAll. cbn [In]. tauto. Qed.
  Lemma r_A j : (j <= n)%nat -> In (ix r1 j) wA.
  Proof. intros Hj. unfold wA. do 3 right. apply in_or_app. left. apply rin, Hj. Qed.
  Lemma r_Q j : (j <= n)%nat -> In (ix r1 j) wQ.
  Proof. intros Hj. unfold wQ. do 3 right. apply in_or_app. left. apply rin, Hj. Qed.

  (** *** the first loop of a row: the low halves, words 0 to n-1 *)
  Definition lp1 := flat_map (mbody false true AFresh n r sr r bo 3%nat) (seq 0 n).
  Definition lp2 k := flat_map (mbody true false k n t75 sr sr bo 3%nat) (seq 0 n).
  Definition lq1 := flat_map (mbody false false AFresh n t73 r r qo 5%nat) (seq 0 n).
  Definition lq2 := flat_map (mbody true false AFresh n t73 sr sr qo 5%nat) (seq 0 n).

  Lemma lp1_ok m y a : rb m -> source n bo y m -> xr m 3 = a -> 0 <= a < B ->
    exists m', exec lay lp1 m = Some m' /\ only wA m m' /\ rb m' /\ xr m' 8 = xr m 8 /\ xr m' 5 = xr m 5 /\
      sm (fun j => xr m' (ix r1 j)) n + b2z (fC m') * B ^ Z.of_nat n = shv m + sm (fun j => mv false (y j) a) n.
  Proof.
    intros Hb Sy Ha Ba.
    destruct (mchain_ok false true AFresh n r sr r bo 3%nat lay m (fun j => xr m (sr j)) y a Hn (f_p1 F)) as (m' & E & Sm & K & R & co & Hc & Cc & Q); auto.
    { intros j Hj. split; [reflexivity|]. apply Hb. lia. }
    exists m'. split; [exact E|]. split; [split; [exact Sm|]; intros t Ht; apply K, (inclb_ok _ _ (f_p1i F)), Ht|]. split.
    { intros j Hj. destruct (Nat.eq_dec j n) as [->|N]; [|apply R; lia]. rewrite K by (apply (f_k1 F); right; left; reflexivity). apply Hb. lia. }
    split; [apply K, (f_k1 F); left; reflexivity|]. split; [apply K, (f_k1 F); right; right; left; reflexivity|]. rewrite <- Cc by discriminate. unfold r, sr in Q. unfold shv. rewrite Q. cbn [c_in Nat.eqb]. lia.
  Qed.
  Lemma lp2_ok k m y a : rb m -> source n bo y m -> xr m 3 = a -> 0 <= a < B -> c_in k m 0 = 0 ->
    exists m' co, exec lay (lp2 k) m = Some m' /\ only wA m m' /\ rb m' /\ xr m' 8 = xr m 8 /\ 0 <= co <= 1 /\ (k <> ALast -> co = b2z (fC m')) /\
      val m' + co * B ^ Z.of_nat (S n) = val m + B * sm (fun j => mv true (y j) a) n.
  Proof.
    intros Hb Sy Ha Ba Hk.
    destruct (mchain_ok true false k n t75 sr sr bo 3%nat lay m (fun j => xr m (sr j)) y a Hn (f_p2 F)) as (m' & E & Sm & K & R & co & Hc & Cc & Q); auto.
    { intros j Hj. split; [reflexivity|]. apply Hb. lia. }
    exists m', co. split; [exact E|]. split; [split; [exact Sm|]; intros t Ht; apply K, (inclb_ok _ _ (f_p2i F)), Ht|].
    assert (K0 : xr m' (ix r1 0) = xr m (ix r1 0)) by (apply K, (f_k2 F); right; left; reflexivity). split.
    { intros j Hj. destruct j as [|j]; [rewrite K0; apply Hb; lia|]. replace (S j) with (j + 1)%nat by lia. apply R. lia. }
    split; [apply K, (f_k2 F); left; reflexivity|]. split; [exact Hc|]. split; [exact Cc|].
    rewrite !val_sh, K0. unfold shv. unfold sr in Q. rewrite Hk in Q. rewrite Nat2Z.inj_succ, Z.pow_succ_r by lia. lia.
  Qed.
  Lemma lq1_ok m y a : rb m -> source n qo y m -> xr m 5 = a -> 0 <= a < B ->
    exists m', exec lay lq1 m = Some m' /\ only wQ m m' /\ rb m' /\ xr m' 8 = xr m 8 /\ xr m' (ix r1 n) = xr m (ix r1 n) /\
      sm (fun j => xr m' (ix r1 j)) n + b2z (fC m') * B ^ Z.of_nat n = sm (fun j => xr m (ix r1 j)) n + sm (fun j => mv false (y j) a) n /\
      xr m' (ix r1 0) = (xr m (ix r1 0) + mv false (y 0%nat) a) mod B.
  Proof.
    intros Hb Sy Ha Ba.
    destruct (mchain_ok false false AFresh n t73 r r qo 5%nat lay m (fun j => xr m (r j)) y a Hn (f_q1 F)) as (m' & E & Sm & K & R & co & Hc & Cc & Q); auto.
    { intros j Hj. split; [reflexivity|]. apply Hb. lia. }
    assert (Kn : xr m' (ix r1 n) = xr m (ix r1 n)) by (apply K, (f_k3 F); right; left; reflexivity).
    assert (Rb : rb m') by (intros j Hj; destruct (Nat.eq_dec j n) as [->|N]; [rewrite Kn; apply Hb; lia|apply R; lia]).
    assert (Q' : sm (fun j => xr m' (ix r1 j)) n + b2z (fC m') * B ^ Z.of_nat n = sm (fun j => xr m (ix r1 j)) n + sm (fun j => mv false (y j) a) n).
    { rewrite <- Cc by discriminate. unfold r in Q. rewrite Q. cbn [c_in Nat.eqb]. lia. }
    exists m'. split; [exact E|]. split; [split; [exact Sm|]; intros t Ht; apply K, (inclb_ok _ _ (f_q1i F)), Ht|]. split; [exact Rb|].
    split; [apply K, (f_k3 F); left; reflexivity|]. split; [exact Kn|]. split; [exact Q'|].
    assert (Hr : forall f k, (0 < k)%nat -> exists u, sm f k = f 0%nat + B * u).
    { intros f k Hk. destruct k; [lia|]. eexists. apply sm_shift. }
    destruct (Hr (fun j => xr m' (ix r1 j)) n Hn) as [u1 U1]. destruct (Hr (fun j => xr m (ix r1 j)) n Hn) as [u2 U2].
    destruct (Hr (fun j => mv false (y j) a) n Hn) as [u3 U3]. rewrite U1, U2, U3 in Q'.
    assert (HP : B ^ Z.of_nat n = B * B ^ Z.of_nat (n - 1)).
    { rewrite <- Z.pow_succ_r by lia. f_equal. lia. }
    rewrite HP in Q'. set (P := B ^ Z.of_nat (n - 1)) in *.
    apply (Zmod_unique _ _ (u1 + b2z (fC m') * P - u2 - u3)); [apply Rb; lia|]. cbv beta in Q'. lia.
  Qed.
  Lemma lq2_ok m y a : rb m -> source n qo y m -> xr m 5 = a -> 0 <= a < B ->
    exists m', exec lay lq2 m = Some m' /\ only wQ m m' /\ rb m' /\ xr m' 8 = xr m 8 /\ xr m' (ix r1 0) = xr m (ix r1 0) /\
      val m' + b2z (fC m') * B ^ Z.of_nat (S n) = val m + B * sm (fun j => mv true (y j) a) n.
  Proof.
    intros Hb Sy Ha Ba.
    destruct (mchain_ok true false AFresh n t73 sr sr qo 5%nat lay m (fun j => xr m (sr j)) y a Hn (f_q2 F)) as (m' & E & Sm & K & R & co & Hc & Cc & Q); auto.
    { intros j Hj. split; [reflexivity|]. apply Hb. lia. }
    exists m'. split; [exact E|]. split; [split; [exact Sm|]; intros t Ht; apply K, (inclb_ok _ _ (f_q2i F)), Ht|].
    assert (K0 : xr m' (ix r1 0) = xr m (ix r1 0)) by (apply K, (f_k4 F); right; left; reflexivity). split.
    { intros j Hj. destruct j as [|j]; [rewrite K0; apply Hb; lia|]. replace (S j) with (j + 1)%nat by lia. apply R. lia. }
    split; [apply K, (f_k4 F); left; reflexivity|]. split; [exact K0|]. rewrite Cc in Q by discriminate.
    rewrite !val_sh, K0. unfold shv. unfold sr in Q. cbn [c_in Nat.eqb] in Q. rewrite Nat2Z.inj_succ, Z.pow_succ_r by lia. lia.
  Qed.

  Lemma adcs_ok d a b m : d <> 31%nat -> let s := xr m a + xr m b + b2z (fC m) in
    exists m', exec lay [Adcs d a b] m = Some m' /\ only [d] m m' /\ xr m' d = s mod B /\ fC m' = (B <=? s).
  Proof.
    intros Hd s. destruct (addk_ok lay ACont 1 0 d a b m Hd) as (m' & E & Sm & X & C & K).
    exists m'. split; [exact E|]. split; [split; [exact Sm|]; intros t Ht; apply K; intros ->; apply Ht; left; reflexivity|]. split; [exact X|].
    apply C. left. discriminate.
  Qed.
  Lemma adds_ok d a b m : d <> 31%nat -> let s := xr m a + xr m b in
    exists m', exec lay [Adds d a b] m = Some m' /\ only [d] m m' /\ xr m' d = s mod B /\ fC m' = (B <=? s).
  Proof.
    intros Hd s. destruct (addk_ok lay AFresh 1 0 d a b m Hd) as (m' & E & Sm & X & C & K). cbn [c_in Nat.eqb] in X, C. rewrite Z.add_0_r in X, C.
    exists m'. split; [exact E|]. split; [split; [exact Sm|]; intros t Ht; apply K; intros ->; apply Ht; left; reflexivity|]. split; [exact X|].
    apply C. left. discriminate.
  Qed.
  Lemma adc_ok d a b m : d <> 31%nat -> let s := xr m a + xr m b + b2z (fC m) in
    exists m', exec lay [Adc d a b] m = Some m' /\ only [d] m m' /\ xr m' d = s mod B /\ fC m' = fC m.
  Proof.
    intros Hd s. eexists. split; [reflexivity|]. split; [apply only_wr; left; reflexivity|]. split; [apply xr_eq, Hd|reflexivity].
  Qed.
  Lemma r8 j : (j <= n)%nat -> ix r1 j <> 8%nat. Proof. intros. apply (rspec j 8%nat); cbn; auto 10. Qed.
  Lemma r31 j : (j <= n)%nat -> ix r1 j <> 31%nat. Proof. intros. apply (rspec j 31%nat); cbn; auto 10. Qed.
  Lemma r5 j : (j <= n)%nat -> ix r1 j <> 5%nat. Proof. intros. apply (rspec j 5%nat); cbn; auto 10. Qed.
  Lemma only1 l d m m' : only [d] m m' -> In d l -> only l m m'.
  Proof. intros H I. apply (only_weak [d]); [|exact H]. intros t [<-|[]]. exact I. Qed.
  Lemma only1_ne d m m' t : only [d] m m' -> t <> d -> xr m' t = xr m t.
  Proof. intros [_ H] N. apply H. intros [Q|[]]. auto. Qed.
  (** a write to the top word *)
  Lemma set_top d m m' : only [d] m m' -> d = ix r1 n -> rb m -> 0 <= xr m' (ix r1 n) < B ->
    rb m' /\ val m' = sm (fun j => xr m (ix r1 j)) n + xr m' (ix r1 n) * B ^ Z.of_nat n.
  Proof.
    intros O -> Rb Ht. assert (K : forall j, (j < n)%nat -> xr m' (ix r1 j) = xr m (ix r1 j)).
    { intros j Hj. apply (only1_ne _ _ _ _ O). apply rdist; lia. }
    split.
    - intros j Hj. destruct (Nat.eq_dec j n) as [->|N]; [exact Ht|]. rewrite K by lia. apply Rb. lia.
    - rewrite val_top. f_equal. apply sm_ext. exact K.
  Qed.
  Lemma set_other d m m' : only [d] m m' -> (forall j, (j <= n)%nat -> ix r1 j <> d) -> rb m -> rb m' /\ val m' = val m /\ shv m' = shv m.
  Proof.
    intros O N Rb. assert (K : forall j, (j <= n)%nat -> xr m' (ix r1 j) = xr m (ix r1 j)) by (intros j Hj; apply (only1_ne _ _ _ _ O); auto).
    split; [intros j Hj; rewrite K by exact Hj; apply Rb, Hj|]. split.
    - apply sm_ext. intros j Hj. apply K. lia.
    - apply sm_ext. intros j Hj. apply K. lia.
  Qed.
  Lemma srcA y m m' : source n bo y m -> only wA m m' -> source n bo y m'.
  Proof. intros H O. apply (src_keep n bo y wA m); auto. intros t Ht I. exact (dep_b t Ht (inA t I)). Qed.
  Lemma srcQ y m m' : source n qo y m -> only wQ m m' -> source n qo y m'.
  Proof. intros H O. apply (src_keep n qo y wQ m); auto. intros t Ht I. exact (dep_q t Ht (inQ t I)). Qed.
  Lemma in8A : In 8%nat wA. Proof. unfold wA. cbn. auto. Qed.
  Lemma in8Q : In 8%nat wQ. Proof. unfold wQ. cbn. auto. Qed.
  Lemma BpS : B ^ Z.of_nat (S n) = B * B ^ Z.of_nat n.
  Proof. rewrite Nat2Z.inj_succ, Z.pow_succ_r by lia. reflexivity. Qed.
  Lemma Bpos : 0 < B ^ Z.of_nat n.
  Proof. apply Z.pow_pos_nonneg; [reflexivity|lia]. Qed.

  Lemma addmul_f m y a z : rb m -> source n bo y m -> xr m 3 = a -> 0 <= a < B -> xr m 8 = z -> 0 <= z <= 1 ->
    exists m', exec lay (lp1 ++ [Adcs (ix r1 n) 31 8] ++ [Adc 8 31 31] ++ lp2 AFresh ++ [Adc 8 8 31]) m = Some m' /\ only wA m m' /\ rb m' /\
      0 <= xr m' 8 <= 1 /\ val m' + xr m' 8 * B ^ Z.of_nat (S n) = shv m + z * B ^ Z.of_nat n + sm y n * a.
  Proof.
    intros Hb Sy Ha Ba Hz Bz.
    destruct (lp1_ok m y a Hb Sy Ha Ba) as (m1 & E1 & O1 & R1 & K1 & K15 & Q1).
    rewrite (exec_app _ _ _ _ _ E1).
    destruct (adcs_ok (ix r1 n) 31%nat 8%nat m1 (r31 n ltac:(lia))) as (m2 & E2 & O2 & X2 & C2).
    rewrite (exec_app _ _ _ _ _ E2). rewrite xr_31, K1, Hz in X2, C2. pose proof (b2z_01 (fC m1)) as C01.
    assert (HB : 4 < B) by reflexivity.
    rewrite Z.mod_small in X2 by lia. destruct (Z.leb_spec B (0 + z + b2z (fC m1))); [lia|].
    destruct (set_top _ m1 m2 O2 eq_refl R1 ltac:(lia)) as [R2 V2].
    destruct (adc_ok 8%nat 31%nat 31%nat m2 ltac:(lia)) as (m3 & E3 & O3 & X3 & C3).
    rewrite (exec_app _ _ _ _ _ E3). rewrite xr_31, C2 in X3. cbn [b2z] in X3. change ((0 + 0 + 0) mod B) with 0 in X3.
    destruct (set_other _ m2 m3 O3 r8 R2) as (R3 & V3 & _).
    assert (O13 : only wA m m3).
    { apply (only_trans _ _ m1 _ O1). apply (only_trans _ _ m2); [apply (only1 _ _ _ _ O2), r_A; lia|apply (only1 _ _ _ _ O3), in8A]. }
    destruct (lp2_ok AFresh m3 y a R3 (srcA y _ _ Sy O13)) as (m4 & co & E4 & O4 & R4 & K4 & Hco & Cco & Q4); auto.
    { rewrite (proj2 O13) by apply (f_3 F). exact Ha. }
    rewrite (exec_app _ _ _ _ _ E4).
    destruct (adc_ok 8%nat 8%nat 31%nat m4 ltac:(lia)) as (m5 & E5 & O5 & X5 & _).
    rewrite K4, X3, xr_31 in X5. rewrite <- (Cco ltac:(discriminate)) in X5. rewrite Z.mod_small in X5 by lia.
    destruct (set_other _ m4 m5 O5 r8 R4) as (R5 & V5 & _).
    exists m5. split; [exact E5|]. split.
    { apply (only_trans _ _ m3 _ O13). apply (only_trans _ _ m4 _ O4). apply (only1 _ _ _ _ O5), in8A. }
    split; [exact R5|]. split; [lia|]. rewrite V5, X5. rewrite V3, V2, X2 in Q4. rewrite <- (mv_split y a n).
    set (P := B ^ Z.of_nat n) in *. lia.
  Qed.

  Lemma addmul_t m y a : rb m -> source n bo y m -> xr m 3 = a -> 0 <= a < B -> xr m 5 = 0 -> shv m + sm y n * a < B ^ Z.of_nat (S n) ->
    exists m', exec lay (lp1 ++ [Adc (ix r1 n) 31 31] ++ [Adds (ix r1 1) (ix r1 1) 5] ++ lp2 ALast) m = Some m' /\ only wA m m' /\ rb m' /\
      val m' = shv m + sm y n * a.
  Proof.
    intros Hb Sy Ha Ba Hz Hlt.
    destruct (lp1_ok m y a Hb Sy Ha Ba) as (m1 & E1 & O1 & R1 & K1 & K15 & Q1).
    rewrite (exec_app _ _ _ _ _ E1).
    destruct (adc_ok (ix r1 n) 31%nat 31%nat m1 (r31 n ltac:(lia))) as (m2 & E2 & O2 & X2 & C2).
    rewrite (exec_app _ _ _ _ _ E2). rewrite xr_31 in X2. pose proof (b2z_01 (fC m1)) as C01.
    assert (HB : 4 < B) by reflexivity.
    rewrite Z.mod_small in X2 by lia.
    destruct (set_top _ m1 m2 O2 eq_refl R1 ltac:(lia)) as [R2 V2].
    assert (O12 : only wA m m2) by (apply (only_trans _ _ m1 _ O1), (only1 _ _ _ _ O2), r_A; lia).
    destruct (adds_ok (ix r1 1) (ix r1 1) 5%nat m2 (r31 1%nat ltac:(lia))) as (m3 & E3 & O3 & X3 & C3).
    rewrite (exec_app _ _ _ _ _ E3).
    assert (X5 : xr m2 5 = 0).
    { rewrite (only1_ne _ _ _ _ O2) by (intros Q; apply (r5 n); auto).
      rewrite K15. exact Hz. }
    rewrite X5, Z.add_0_r in X3, C3. pose proof (R2 1%nat ltac:(lia)) as B21. rewrite Z.mod_small in X3 by exact B21.
    destruct (Z.leb_spec B (xr m2 (ix r1 1))); [lia|].
    assert (K3 : forall t, xr m3 t = xr m2 t).
    { intros t. destruct (Nat.eq_dec t (ix r1 1)) as [->|N]; [exact X3|]. apply (only1_ne _ _ _ _ O3 N). }
    assert (R3 : rb m3) by (intros j Hj; rewrite K3; apply R2, Hj).
    assert (V3 : val m3 = val m2) by (apply sm_ext; intros; apply K3).
    assert (O13 : only wA m m3) by (apply (only_trans _ _ m2 _ O12), (only1 _ _ _ _ O3), r_A; lia).
    destruct (lp2_ok ALast m3 y a R3 (srcA y _ _ Sy O13)) as (m4 & co & E4 & O4 & R4 & K4 & Hco & Cco & Q4); auto.
    { rewrite (proj2 O13) by apply (f_3 F). exact Ha. }
    { cbn [c_in]. rewrite C3. reflexivity. }
    exists m4. split; [exact E4|]. split; [apply (only_trans _ _ m3 _ O13 O4)|]. split; [exact R4|].
    rewrite V3, V2, X2 in Q4. rewrite <- (mv_split y a n) in *.
    assert (V0 : 0 <= val m4) by (apply sm_bound; intros j Hj; apply R4; lia).
    set (P := B ^ Z.of_nat n) in *. set (P1 := B ^ Z.of_nat (S n)) in *. assert (co = 0) by nia. lia.
  Qed.

  Lemma mulq_f (w0 : bool) m y a z : rb m -> source n qo y m -> xr m 5 = a -> 0 <= a < B -> (w0 = false -> xr m 8 = z) -> (w0 = true -> z = 0) -> 0 <= z <= 1 ->
    exists m', exec lay (lq1 ++ [Adcs (ix r1 n) (ix r1 n) 31] ++ [if w0 then Adc 8 31 31 else Adc 8 8 31] ++ lq2 ++ [Adc 8 8 31]) m = Some m' /\ only wQ m m' /\ rb m' /\
      0 <= xr m' 8 <= 3 /\ val m' + xr m' 8 * B ^ Z.of_nat (S n) = val m + z * B ^ Z.of_nat (S n) + sm y n * a /\
      xr m' (ix r1 0) = (xr m (ix r1 0) + mv false (y 0%nat) a) mod B.
  Proof.
    intros Hb Sy Ha Ba Hz Hz0 Bz.
    destruct (lq1_ok m y a Hb Sy Ha Ba) as (m1 & E1 & O1 & R1 & K1 & Kn & Q1 & Z1).
    rewrite (exec_app _ _ _ _ _ E1).
    destruct (adcs_ok (ix r1 n) (ix r1 n) 31%nat m1 (r31 n ltac:(lia))) as (m2 & E2 & O2 & X2 & C2).
    rewrite (exec_app _ _ _ _ _ E2). rewrite xr_31, Kn in X2, C2. pose proof (b2z_01 (fC m1)) as C01.
    assert (HB : 4 < B) by reflexivity. pose proof (Hb n ltac:(lia)) as Bn.
    pose proof (carry_eq (xr m (ix r1 n) + 0 + b2z (fC m1)) ltac:(lia)) as Cy. rewrite <- X2, <- C2 in Cy.
    destruct (set_top _ m1 m2 O2 eq_refl R1 ltac:(rewrite X2; apply Z.mod_pos_bound; reflexivity)) as [R2 V2].
    assert (K8 : xr m2 8 = xr m 8) by (rewrite (only1_ne _ _ _ _ O2) by (intros Q; apply (r8 n); auto); exact K1).
    assert (E3' : exists m3, exec lay [if w0 then Adc 8 31 31 else Adc 8 8 31] m2 = Some m3 /\ only [8%nat] m2 m3 /\ xr m3 8 = z + b2z (fC m2)).
    { pose proof (b2z_01 (fC m2)) as C02. destruct w0.
      - destruct (adc_ok 8%nat 31%nat 31%nat m2 ltac:(lia)) as (m3 & E3 & O3 & X3 & _). exists m3. split; [exact E3|]. split; [exact O3|].
        rewrite X3, xr_31, Z.mod_small by lia. specialize (Hz0 eq_refl). lia.
      - destruct (adc_ok 8%nat 8%nat 31%nat m2 ltac:(lia)) as (m3 & E3 & O3 & X3 & _). exists m3. split; [exact E3|]. split; [exact O3|].
        specialize (Hz eq_refl). rewrite X3, xr_31, K8, Hz, Z.mod_small by lia. lia. }
    destruct E3' as (m3 & E3 & O3 & X3).
    rewrite (exec_app _ _ _ _ _ E3).
    destruct (set_other _ m2 m3 O3 r8 R2) as (R3 & V3 & _).
    assert (O13 : only wQ m m3).
    { apply (only_trans _ _ m1 _ O1). apply (only_trans _ _ m2); [apply (only1 _ _ _ _ O2), r_Q; lia|apply (only1 _ _ _ _ O3), in8Q]. }
    destruct (lq2_ok m3 y a R3 (srcQ y _ _ Sy O13)) as (m4 & E4 & O4 & R4 & K4 & Z4 & Q4); auto.
    { rewrite (proj2 O13) by apply (f_5 F). exact Ha. }
    rewrite (exec_app _ _ _ _ _ E4).
    destruct (adc_ok 8%nat 8%nat 31%nat m4 ltac:(lia)) as (m5 & E5 & O5 & X5 & _).
    pose proof (b2z_01 (fC m4)) as C04. pose proof (b2z_01 (fC m2)) as C02.
    rewrite K4, X3, xr_31 in X5. rewrite Z.mod_small in X5 by lia.
    destruct (set_other _ m4 m5 O5 r8 R4) as (R5 & V5 & _).
    exists m5. split; [exact E5|]. split.
    { apply (only_trans _ _ m3 _ O13). apply (only_trans _ _ m4 _ O4). apply (only1 _ _ _ _ O5), in8Q. }
    split; [exact R5|]. split; [lia|]. split.
    - rewrite V5, X5. rewrite V3, V2 in Q4. rewrite <- (mv_split y a n). rewrite (val_top m). rewrite BpS in *.
      set (P := B ^ Z.of_nat n) in *. replace (xr m (ix r1 n)) with (xr m2 (ix r1 n) + b2z (fC m2) * B - b2z (fC m1)) by lia. lia.
    - rewrite (only1_ne _ _ _ _ O5) by (apply r8; lia). rewrite Z4. rewrite (only1_ne _ _ _ _ O3) by (apply r8; lia).
      rewrite (only1_ne _ _ _ _ O2) by (apply rdist; lia). exact Z1.
  Qed.

  Lemma mulq_t (fin : bool) m y a : rb m -> source n qo y m -> xr m 5 = a -> 0 <= a < B -> val m + sm y n * a < B ^ Z.of_nat (S n) ->
    exists m', exec lay (lq1 ++ [Adc (ix r1 n) (ix r1 n) 31] ++ lq2 ++ (if fin then [] else [Adc 5 31 31])) m = Some m' /\ only wAll m m' /\ rb m' /\
      val m' = val m + sm y n * a /\ (fin = false -> xr m' 5 = 0) /\
      xr m' (ix r1 0) = (xr m (ix r1 0) + mv false (y 0%nat) a) mod B.
  Proof.
    intros Hb Sy Ha Ba Hlt.
    destruct (lq1_ok m y a Hb Sy Ha Ba) as (m1 & E1 & O1 & R1 & K1 & Kn & Q1 & Z1).
    rewrite (exec_app _ _ _ _ _ E1).
    destruct (adc_ok (ix r1 n) (ix r1 n) 31%nat m1 (r31 n ltac:(lia))) as (m2 & E2 & O2 & X2 & C2).
    rewrite (exec_app _ _ _ _ _ E2). rewrite xr_31, Kn in X2. pose proof (b2z_01 (fC m1)) as C01.
    assert (HB : 4 < B) by reflexivity. pose proof (Hb n ltac:(lia)) as Bn.
    destruct Sy as [By Sy']. assert (Sy : source n qo y m) by (split; auto).
    assert (H1 : 0 <= sm (fun j => xr m1 (ix r1 j)) n) by (apply sm_bound; intros j Hj; apply R1; lia).
    assert (H2 : 0 <= sm (fun j => mv true (y j) a) n) by (apply sm_bound; intros j Hj; apply mv_range; auto).
    rewrite <- (mv_split y a n), (val_top m) in Hlt. rewrite BpS in Hlt.
    assert (Small : xr m (ix r1 n) + 0 + b2z (fC m1) < B) by (pose proof Bpos; nia).
    rewrite Z.mod_small in X2 by lia.
    destruct (set_top _ m1 m2 O2 eq_refl R1 ltac:(lia)) as [R2 V2].
    assert (O12 : only wQ m m2) by (apply (only_trans _ _ m1 _ O1), (only1 _ _ _ _ O2), r_Q; lia).
    destruct (lq2_ok m2 y a R2 (srcQ y _ _ Sy O12)) as (m4 & E4 & O4 & R4 & K4 & Z4 & Q4); auto.
    { rewrite (proj2 O12) by apply (f_5 F). exact Ha. }
    rewrite (exec_app _ _ _ _ _ E4).
    assert (Z0 : xr m4 (ix r1 0) = (xr m (ix r1 0) + mv false (y 0%nat) a) mod B).
    { rewrite Z4. rewrite (only1_ne _ _ _ _ O2) by (apply rdist; lia). exact Z1. }
    pose proof (b2z_01 (fC m4)) as C04.
    assert (V0 : 0 <= val m4) by (apply sm_bound; intros j Hj; apply R4; lia).
    assert (C0 : b2z (fC m4) = 0 /\ val m4 = val m + sm y n * a).
    { rewrite V2, X2, BpS in Q4. rewrite <- (mv_split y a n), (val_top m). set (P := B ^ Z.of_nat n) in *. pose proof Bpos as HP. fold P in HP.
      assert (b2z (fC m4) = 0) by nia. split; [assumption|]. lia. }
    destruct C0 as [C0 V4].
    assert (O14 : only wAll m m4) by (apply (only_weak wQ); [exact inQ|]; apply (only_trans _ _ m2 _ O12 O4)).
    destruct fin.
    - exists m4. split; [reflexivity|]. split; [exact O14|]. split; [exact R4|]. split; [exact V4|]. split; [discriminate|exact Z0].
    - destruct (adc_ok 5%nat 31%nat 31%nat m4 ltac:(lia)) as (m5 & E5 & O5 & X5 & _).
      destruct (set_other _ m4 m5 O5 r5 R4) as (R5 & V5 & _).
      exists m5. split; [exact E5|]. split; [apply (only_trans _ _ m4 _ O14), (only1 _ _ _ _ O5); unfold wAll; cbn; auto|]. split; [exact R5|].
      split; [congruence|]. split; [intros _; rewrite X5, xr_31, C0; reflexivity|]. rewrite (only1_ne _ _ _ _ O5) by (apply r5; lia). exact Z0.
  Qed.
End Row.
