(** The limb loops of the comparisons and of the truth value: cmpops.asm.ejs and
    logicalops.asm.ejs. *)
From Coq Require Import ZArith List Bool Arith Lia.
From Verif Require Import Limbs LimbsFacts X86 X86Sim X86Mont X86Call X86Raw X86RawFacts X86RawFacts2 X86RawFacts3 X86T X86TWords X86TFacts.
Import ListNotations.
Open Scope Z_scope.

Section Loop.
Variable lay : sym -> Z.
Variable n : nat.
Variable m : mach.
Hypothesis Hm : words m.
(** only rax and the flags change *)
Definition onlyrax (m' : mach) : Prop := mem m' = mem m /\ (forall r, r <> RAX -> regs m' r = regs m r) /\ 0 <= regs m' RAX < B.
Lemma onlyrax_refl : onlyrax m. Proof. split; [reflexivity|]. split; [reflexivity|apply Hm]. Qed.
Lemma onlyrax_rax m' v : onlyrax m' -> 0 <= v < B -> onlyrax (setr m' RAX v).
Proof. intros (H1 & H2 & H3) Hv. split; [exact H1|]. split; [intros r Hr; cbn [setr regs]; rewrite rupd_neq by exact Hr; apply H2, Hr|cbn [setr regs]; rewrite rupd_eq; exact Hv]. Qed.
Lemma onlyrax_f m' f : onlyrax m' -> onlyrax (setf m' f). Proof. intros H. exact H. Qed.
Lemma w_cmpc m1 x o a code Q : loc lay m1 o a -> 0 <= regs m1 x < B -> 0 <= mem m1 a < B ->
  (forall f, cf f = (mem m1 a <? regs m1 x) -> zf f = (mem m1 a =? regs m1 x) -> ww lay code Q (setf m1 f, None)) -> ww lay (I Icmp [o; OReg x] :: code) Q (m1, None).
Proof.
  intros L H1 H2 H. destruct (loc_mem _ _ _ _ L) as [E1 E2]. eapply ww_cons; [|apply H]; cycle 1; [| |cbn [step]; unfold exec; cbn [encodable is_reg is_mem]; rewrite E1, E2; cbn [orb andb negb rds]; rewrite (rd_loc _ _ _ _ L); cbn [rd sem]; unfold subf; cbn [wrs]; reflexivity].
  - cbn [cf]. destruct (Z.ltb_spec (mem m1 a - regs m1 x - 0) 0), (Z.ltb_spec (mem m1 a) (regs m1 x)); try reflexivity; lia.
  - cbn [zf]. apply eq_mod; assumption.
Qed.
Lemma at8_S r p j m1 : regs m1 r = p -> 0 <= p -> X86RawFacts.ptr (p + 8) n -> (j < n)%nat -> loc lay m1 (at8 r (S j)) (p + 8 + 8 * Z.of_nat j).
Proof.
  intros E Hp H Hj. unfold loc, at8, addr. rewrite E. destruct (ptr_addr _ n j H Hj) as [H1 H2]. split; [|exact H2]. rewrite <- H1. f_equal. lia.
Qed.
(** *** from the top: rax := x_j, compare y_j with rax *)
Section Top.
Variables (r : reg) (p : Z) (o : nat -> opd) (yb : Z) (A Bl : label) (last : list instr) (lastsk : bool -> option label).
Hypothesis Er : regs m r = p.
Hypothesis Nr : r <> RAX.
Hypothesis Hp : 0 <= p.
Hypothesis Px : X86RawFacts.ptr (p + 8) n.
Hypothesis Lo : forall m' i, (i < n)%nat -> onlyrax m' -> loc lay m' (o i) (yb + 8 * Z.of_nat (n - i - 1)).
Hypothesis Hlast : forall m', run lay last (m', None) = Some (m', lastsk (zf (fl m'))).
Hypothesis Nlast : forall l, nolab l last = true.
Definition topBody (i : nat) : list instr := [I Imov [OReg RAX; at8 r (n - i)]; I Icmp [o i; OReg RAX]; J Cc A] ++ (if (0 <? n - i - 1)%nat then [J Cnz Bl] else last).
Notation xj j := (mem m (p + 8 + 8 * Z.of_nat j)).
Notation yj j := (mem m (yb + 8 * Z.of_nat j)).
Notation xv := (vals m (p + 8) n).
Notation yv := (vals m yb n).
Definition topRes (sk : option label) : Prop := (yv < xv /\ sk = Some A) \/ (xv < yv /\ (sk = Some Bl \/ sk = lastsk false)) \/ (xv = yv /\ sk = lastsk true).
Record Top (i : nat) (s : X86RawFacts.st) : Prop := {
  tp_m : onlyrax (fst s);
  tp_or : ((i < n)%nat /\ snd s = None /\ (forall j, (n - i <= j < n)%nat -> xj j = yj j)) \/ (yv < xv /\ snd s = Some A) \/ (xv < yv /\ snd s = Some Bl) \/ (i = n /\ topRes (snd s)) }.
Lemma body_nolab l i : nolab l (topBody i) = true.
Proof. unfold topBody. rewrite nolab_app. cbn [nolab andb]. destruct (0 <? n - i - 1)%nat; [reflexivity|apply Nlast]. Qed.
Lemma top_loop : (1 <= n)%nat -> ww lay (flat_map topBody (seq 0 n)) (fun s => onlyrax (fst s) /\ topRes (snd s)) (m, None).
Proof.
  intros Hn. eapply ww_mono; [|apply (ww_loop lay Top topBody n 0)].
  - intros [m' sk] [K1 K2]. cbn [fst snd] in *. split; [exact K1|]. destruct K2 as [[K2 _]|[K2|[K2|[_ K2]]]]; [lia|left; exact K2|right; left; tauto|exact K2].
  - intros i [m' sk] Hi [K1 K2]. cbn [fst snd] in *. destruct K2 as [(_ & -> & K2)|[(K2 & ->)|[(K2 & ->)|[K2 _]]]]; [| | |lia].
    2:{ apply ww_skip; [apply body_nolab|]. constructor; cbn [fst snd]; auto. }
    2:{ apply ww_skip; [apply body_nolab|]. constructor; cbn [fst snd]; auto. }
    destruct K1 as (M1 & R1 & X1). set (k := (n - i - 1)%nat). assert (Hk : (k < n)%nat) by (unfold k; lia).
    unfold topBody. cbn [app]. replace (n - i)%nat with (S k) by (unfold k; lia). replace (S k - 1)%nat with k by lia.
    eapply w_ld; [apply at8_S; [rewrite R1 by exact Nr; exact Er|exact Hp|exact Px|exact Hk]|]. rewrite M1. set (m2 := setr m' RAX _).
    assert (O2 : onlyrax m2) by (apply onlyrax_rax; [split; [exact M1|split; assumption]|apply Hm]).
    assert (A2 : regs m2 RAX = xj k) by (unfold m2; cbn [setr regs]; apply rupd_eq).
    assert (Y2 : mem m2 (yb + 8 * Z.of_nat k) = yj k) by (rewrite (proj1 O2); reflexivity).
    apply w_cmpc with (yb + 8 * Z.of_nat k); [apply Lo; [lia|exact O2]|rewrite A2; apply Hm|rewrite Y2; apply Hm|]. rewrite A2, Y2. intros f Hc Hz. apply w_j. cbn [holds_cond setf fl]. rewrite Hc. fold (setf m2 f). destruct (Z.ltb_spec (yj k) (xj k)) as [Lt|Ge].
    + apply ww_skip; [destruct (0 <? k)%nat; [reflexivity|apply Nlast]|]. constructor; cbn [fst snd]; [exact O2|]. right; left. split; [|reflexivity]. apply es_top with k; [exact Hk|intros; apply Hm|intros; apply Hm|intros j Hj; symmetry; apply K2; unfold k in *; lia|exact Lt].
    + assert (LT : xj k <> yj k -> xv < yv) by (intros Ne; apply es_top with k; [exact Hk|intros; apply Hm|intros; apply Hm|intros j Hj; apply K2; unfold k in *; lia|lia]).
      destruct (Nat.ltb_spec 0 k) as [K0|K0].
      * apply w_j. cbn [holds_cond setf fl]. rewrite Hz. apply ww_nil. constructor; cbn [fst snd]; [exact O2|]. destruct (Z.eqb_spec (yj k) (xj k)) as [Ee|Ne]; cbn [negb].
        -- left. split; [unfold k in *; lia|]. split; [reflexivity|]. intros j Hj. destruct (Nat.eq_dec j k) as [->|N]; [symmetry; exact Ee|]. apply K2. unfold k in *. lia.
        -- right; right; left. split; [apply LT; congruence|reflexivity].
      * eexists. split; [apply Hlast|]. constructor; cbn [fst snd setf fl]; [exact O2|]. right; right; right. split; [unfold k in *; lia|]. rewrite Hz. destruct (Z.eqb_spec (yj k) (xj k)) as [Ee|Ne].
        -- right; right. split; [|reflexivity]. apply es_ext. intros j Hj. destruct (Nat.eq_dec j k) as [->|N]; [symmetry; exact Ee|]. apply K2. unfold k in *. lia.
        -- right; left. split; [apply LT; congruence|right; reflexivity].
  - constructor; cbn [fst snd]; [apply onlyrax_refl|]. left. split; [lia|]. split; [reflexivity|]. intros; lia.
Qed.
End Top.
(** *** signs *)
Lemma half8_loc m1 i : X86RawFacts.ptr (lay Shalf) n -> (i < n)%nat -> loc lay m1 (half8 i) (lay Shalf + 8 * Z.of_nat i).
Proof. intros H Hi. unfold loc, half8, addr. apply (ptr_addr _ n i H Hi). Qed.
Lemma sign_loop r p pos neg : (1 <= n)%nat -> regs m r = p -> r <> RAX -> 0 <= p -> X86RawFacts.ptr (p + 8) n -> X86RawFacts.ptr (lay Shalf) n ->
  ww lay (signL n r pos neg) (fun s => onlyrax (fst s) /\ snd s = Some (if vals m (p + 8) n <=? vals m (lay Shalf) n then pos else neg)) (m, None).
Proof.
  intros Hn E Nr Hp Px Ph.
  assert (EC : signL n r pos neg = flat_map (topBody r (fun i => half8 (n - i - 1)) neg pos [Jmp pos]) (seq 0 n)).
  { unfold signL. apply flat_map_ext. intros i. unfold topBody. destruct (0 <? n - i - 1)%nat; reflexivity. }
  rewrite EC. eapply ww_mono; [|apply (top_loop r p _ (lay Shalf) neg pos [Jmp pos] (fun _ => Some pos) E Nr Hp Px)].
  - intros [m' sk] [H1 H2]. cbn [fst snd] in *. split; [exact H1|]. destruct (Z.leb_spec (vals m (p + 8) n) (vals m (lay Shalf) n)); destruct H2 as [[H2 ->]|[[H2 [-> | ->]]|[H2 ->]]]; try reflexivity; lia.
  - intros m' i Hi _. apply half8_loc; [exact Ph|lia].
  - intros m'. reflexivity.
  - reflexivity.
  - exact Hn.
Qed.
Lemma raw_loop pa pb A Bl last lastsk : (1 <= n)%nat -> regs m RSI = pa -> regs m RDX = pb -> 0 <= pa -> 0 <= pb -> X86RawFacts.ptr (pa + 8) n -> X86RawFacts.ptr (pb + 8) n ->
  (forall m', run lay last (m', None) = Some (m', lastsk (zf (fl m')))) -> (forall l, nolab l last = true) ->
  ww lay (cmpraw n (fun i => J Cc A :: (if (0 <? i)%nat then [J Cnz Bl] else last))) (fun s => onlyrax (fst s) /\
    ((vals m (pb + 8) n < vals m (pa + 8) n /\ snd s = Some A) \/ (vals m (pa + 8) n < vals m (pb + 8) n /\ (snd s = Some Bl \/ snd s = lastsk false)) \/ (vals m (pa + 8) n = vals m (pb + 8) n /\ snd s = lastsk true))) (m, None).
Proof.
  intros Hn Ea Eb Pa Pb Xa Xb HL NL. unfold cmpraw. eapply ww_mono; [|apply (top_loop RSI pa (fun i => at8 RDX (n - i)) (pb + 8) A Bl last lastsk Ea ltac:(discriminate) Pa Xa)].
  - intros s H. exact H.
  - intros m' i Hi (_ & R1 & _). replace (n - i)%nat with (S (n - i - 1)) by lia. replace (S (n - i - 1) - 1)%nat with (n - i - 1)%nat by lia. apply at8_S; [rewrite R1 by discriminate; exact Eb|exact Pb|exact Xb|lia].
  - exact HL.
  - exact NL.
  - exact Hn.
Qed.
(** *** equality *)
Section Eq.
Variables (l : label) (f : nat -> list instr) (g : nat -> Z) (px : Z).
Hypothesis Nf : forall l' i, nolab l' (f i) = true.
Notation xj j := (mem m (px + 8 * Z.of_nat j)).
Hypothesis Step : forall i m', (i < n)%nat -> onlyrax m' -> ww lay (f i) (fun s => onlyrax (fst s) /\ snd s = if xj i =? g i then None else Some l) (m', None).
Hypothesis Rg : forall j, (j < n)%nat -> 0 <= g j < B.
Record EqI (i : nat) (s : X86RawFacts.st) : Prop := {
  eq_m : onlyrax (fst s);
  eq_or : (snd s = None /\ (forall j, (j < i)%nat -> xj j = g j)) \/ (snd s = Some l /\ exists j, (j < n)%nat /\ xj j <> g j) }.
Lemma es_inj f1 f2 k : (forall j, (j < k)%nat -> 0 <= f1 j < B) -> (forall j, (j < k)%nat -> 0 <= f2 j < B) -> es f1 k = es f2 k -> forall j, (j < k)%nat -> f1 j = f2 j.
Proof.
  induction k as [|k IH]; intros H1 H2 E j Hj; [lia|].
  assert (Ek : f1 k = f2 k). { destruct (Z.lt_trichotomy (f1 k) (f2 k)) as [L|[L|L]]; [|exact L|]; exfalso; [assert (es f1 (S k) < es f2 (S k))|assert (es f2 (S k) < es f1 (S k))]; try (apply es_top with k; auto; intros; lia); lia. }
  destruct (Nat.eq_dec j k) as [->|N]; [exact Ek|]. cbn [es] in E. apply IH; [intros; apply H1; lia|intros; apply H2; lia| |lia]. rewrite Ek in E. lia.
Qed.
Lemma eq_loop : ww lay (flat_map f (seq 0 n)) (fun s => onlyrax (fst s) /\ snd s = if vals m px n =? es g n then None else Some l) (m, None).
Proof.
  eapply ww_mono; [|apply (ww_loop lay EqI f n 0)].
  - intros [m' sk] [K1 K2]. cbn [fst snd] in *. split; [exact K1|]. destruct K2 as [[-> K2]|[-> (j & Hj & K2)]].
    + replace (vals m px n) with (es g n); [rewrite Z.eqb_refl; reflexivity|]. symmetry. apply es_ext, K2.
    + destruct (Z.eqb_spec (vals m px n) (es g n)) as [E|E]; [|reflexivity]. exfalso. apply K2. refine (es_inj (fun j => xj j) g n _ Rg E j Hj). intros; apply Hm.
  - intros i [m' sk] Hi [K1 K2]. cbn [fst snd] in *. destruct K2 as [[-> K2]|[-> K2]].
    + eapply ww_mono; [|apply Step; [lia|exact K1]]. intros [m2 sk2] [H1 H2]. cbn [fst snd] in *. constructor; cbn [fst snd]; [exact H1|]. destruct (Z.eqb_spec (xj i) (g i)) as [E|E].
      * left. split; [exact H2|]. intros j Hj. destruct (Nat.eq_dec j i) as [->|N]; [exact E|apply K2; lia].
      * right. split; [exact H2|]. exists i. split; [lia|exact E].
    + apply ww_skip; [apply Nf|]. constructor; cbn [fst snd]; [exact K1|right; auto].
  - constructor; cbn [fst snd]; [apply onlyrax_refl|]. left. split; [reflexivity|intros; lia].
Qed.
End Eq.
Lemma req_loop pa pb l : regs m RSI = pa -> regs m RDX = pb -> 0 <= pa -> 0 <= pb -> X86RawFacts.ptr (pa + 8) n -> X86RawFacts.ptr (pb + 8) n ->
  ww lay (flat_map (fun i => [I Imov [OReg RAX; at8 RSI (i + 1)]; I Icmp [at8 RDX (i + 1); OReg RAX]; J Cnz l]) (seq 0 n)) (fun s => onlyrax (fst s) /\ snd s = if vals m (pa + 8) n =? vals m (pb + 8) n then None else Some l) (m, None).
Proof.
  intros Ea Eb Pa Pb Xa Xb. apply (eq_loop l _ (fun j => mem m (pb + 8 + 8 * Z.of_nat j)) (pa + 8)); [reflexivity| |intros; apply Hm].
  intros i m' Hi K1. pose proof K1 as (M1 & R1 & X1). replace (i + 1)%nat with (S i) by lia.
  eapply w_ld; [apply at8_S; [rewrite R1 by discriminate; exact Ea|exact Pa|exact Xa|exact Hi]|]. rewrite M1. set (m2 := setr m' RAX _). assert (O2 : onlyrax m2) by (apply onlyrax_rax; [exact K1|apply Hm]).
  assert (A2 : regs m2 RAX = mem m (pa + 8 + 8 * Z.of_nat i)) by (unfold m2; cbn [setr regs]; apply rupd_eq). pose proof O2 as (M2 & R2 & _).
  eapply w_cmpc; [apply at8_S; [rewrite R2 by discriminate; exact Eb|exact Pb|exact Xb|exact Hi]|apply O2|rewrite M2; apply Hm|]. rewrite A2, M2. intros f _ Hz. apply w_j. cbn [holds_cond setf fl]. rewrite Hz. apply ww_nil. cbn [fst snd]. split; [exact O2|]. clear Hz. match goal with |- _ = (if ?b then _ else _) => rewrite (Z.eqb_sym (mem m (pb + 8 + 8 * Z.of_nat i))); destruct b; reflexivity end.
Qed.
Lemma true_loop r p l : regs m r = p -> r <> RAX -> 0 <= p -> X86RawFacts.ptr (p + 8) n ->
  ww lay (flat_map (fun i => [I Imov [OReg RAX; at8 r (i + 1)]; I Itest [OReg RAX; OReg RAX]; J Cnz l]) (seq 0 n)) (fun s => onlyrax (fst s) /\ snd s = if vals m (p + 8) n =? 0 then None else Some l) (m, None).
Proof.
  intros E Nr Hp Px. assert (E0 : es (fun _ => 0) n = 0) by (clear; induction n as [|k IH]; [reflexivity|cbn [es]; lia]). rewrite <- E0. apply (eq_loop l _ (fun _ => 0) (p + 8)); [reflexivity| |intros; pose proof B_pos; lia].
  intros i m' Hi K1. pose proof K1 as (M1 & R1 & X1). replace (i + 1)%nat with (S i) by lia.
  eapply w_ld; [apply at8_S; [rewrite R1 by exact Nr; exact E|exact Hp|exact Px|exact Hi]|]. rewrite M1. set (m2 := setr m' RAX _). assert (O2 : onlyrax m2) by (apply onlyrax_rax; [exact K1|apply Hm]).
  assert (A2 : regs m2 RAX = mem m (p + 8 + 8 * Z.of_nat i)) by (unfold m2; cbn [setr regs]; apply rupd_eq).
  eapply ww_cons; [cbn [step]; unfold exec; cbn [encodable is_reg is_mem orb andb negb rds rd sem]; cbn [wrs]; reflexivity|]. rewrite A2, Z.land_diag. apply w_j. cbn [holds_cond setf fl zf]. apply ww_nil. cbn [fst snd]. split; [exact O2|]. match goal with |- _ = (if ?b then _ else _) => destruct b; reflexivity end.
Qed.
End Loop.
