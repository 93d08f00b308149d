(** Facts about the AArch64 machine and the parts of its code generator. *)
From Coq Require Import ZArith List Bool Lia.
From Verif Require Import Limbs Arm.
Import ListNotations.
Open Scope Z_scope.

(** [n] words at [p]: an area of mapped words *)
Definition area (m : mach) (p : Z) (n : nat) : Prop :=
  0 <= p /\ p + 8 * Z.of_nat n <= B /\ p mod 8 = 0 /\
  (forall i, (i < n)%nat -> mapd m (p + off i) = true /\ 0 <= mem m (p + off i) < B).
(** the same without its contents: an area to be written *)
Definition room (m : mach) (p : Z) (n : nat) : Prop :=
  0 <= p /\ p + 8 * Z.of_nat n <= B /\ p mod 8 = 0 /\
  (forall i, (i < n)%nat -> mapd m (p + off i) = true).
(** the number stored in [n] words *)
Fixpoint num (f : Z -> Z) (p : Z) (n : nat) : Z :=
  match n with O => 0 | S n => num f p n + f (p + off n) * B ^ Z.of_nat n end.

Lemma area_room m p n : area m p n -> room m p n.
Proof. intros (a & b & c & d). repeat split; auto. intros i Hi. apply d; auto. Qed.
Lemma Bpos : 0 < B. Proof. reflexivity. Qed.
Lemma Bp n : 0 < B ^ Z.of_nat n.
Proof. apply Z.pow_pos_nonneg; [reflexivity|lia]. Qed.
Lemma BS n : B ^ Z.of_nat (S n) = B * B ^ Z.of_nat n.
Proof. rewrite Nat2Z.inj_succ, Z.pow_succ_r by lia. reflexivity. Qed.
Lemma num_bound f p n : (forall i, (i < n)%nat -> 0 <= f (p + off i) < B) -> 0 <= num f p n < B ^ Z.of_nat n.
Proof.
  induction n; intros H; cbn [num]. { change (B ^ Z.of_nat 0) with 1. lia. }
  assert (0 <= num f p n < B ^ Z.of_nat n) by (apply IHn; intros; apply H; lia).
  specialize (H n ltac:(lia)). rewrite BS. pose proof (Bp n). nia.
Qed.
Lemma num_ext f g p p' n : (forall i, (i < n)%nat -> f (p + off i) = g (p' + off i)) -> num f p n = num g p' n.
Proof.
  induction n; intros H; cbn [num]; [reflexivity|].
  rewrite (H n) by lia. rewrite IHn; [reflexivity|]. intros; apply H; lia.
Qed.
Lemma area_num m p n : area m p n -> 0 <= num (mem m) p n < B ^ Z.of_nat n.
Proof. intros (_ & _ & _ & H). apply num_bound. intros i Hi. apply (H i Hi). Qed.

(** Straight-line code *)
Fixpoint exec (lay : sym -> Z) (c : list instr) (m : mach) : option mach :=
  match c with [] => Some m | i :: c => match step lay i m with Some m => exec lay c m | None => None end end.
Lemma exec_app lay a b m m1 : exec lay a m = Some m1 -> exec lay (a ++ b) m = exec lay b m1.
Proof.
  revert m. induction a as [|i a IH]; cbn; intros m H. { now injection H as ->. }
  destruct (step lay i m); [|discriminate]. apply IH, H.
Qed.
Lemma run_exec lay c k m m1 : exec lay c m = Some m1 -> run lay None (c ++ k) m = run lay None k m1.
Proof.
  revert m. induction c as [|i a IH]; cbn [exec app]; intros m H. { now injection H as ->. }
  destruct (step lay i m) as [m2|] eqn:E; [|discriminate].
  transitivity (run lay None (a ++ k) m2).
  - destruct i; cbn [run]; try rewrite E; try reflexivity; cbn in E; discriminate.
  - apply IH, H.
Qed.
Definition nolab (l : nat) (i : instr) : bool := match i with Lab l' => negb (Nat.eqb l l') | _ => true end.
Lemma run_skip lay l s k m : forallb (nolab l) s = true ->
  run lay (Some l) (s ++ Lab l :: k) m = run lay None k m.
Proof.
  induction s as [|i s IH]; cbn [app forallb].
  - intros _. cbn [run]. now rewrite Nat.eqb_refl.
  - intros H. apply andb_prop in H as [H1 H2]. specialize (IH H2).
    destruct i; cbn [run]; try exact IH.
    cbn in H1. destruct (Nat.eqb l l0); [discriminate|exact IH].
Qed.

Lemma exec_loop lay body (Inv : nat -> mach -> Prop) n m :
  (forall i m, (i < n)%nat -> Inv i m -> exists m', exec lay (body i) m = Some m' /\ Inv (S i) m') ->
  Inv 0%nat m -> exists m', exec lay (flat_map body (seq 0 n)) m = Some m' /\ Inv n m'.
Proof.
  intros H H0.
  assert (G : forall k s m, (s + k = n)%nat -> Inv s m ->
            exists m', exec lay (flat_map body (seq s k)) m = Some m' /\ Inv n m').
  { induction k as [|k IH]; intros s m1 E I.
    - exists m1. cbn. rewrite Nat.add_0_r in E. subst. auto.
    - destruct (H s m1 ltac:(lia) I) as (m2 & E2 & I2).
      destruct (IH (S s) m2 ltac:(lia) I2) as (m3 & E3 & I3).
      exists m3. split; [|exact I3]. cbn [seq flat_map]. rewrite (exec_app _ _ _ _ _ E2). exact E3. }
  apply (G n 0%nat m); auto.
Qed.

(** Registers *)
Lemma xr_wr m r v s : s <> 31%nat -> xr (wr m r v) s = if Nat.eqb s r then v else xr m s.
Proof. intros H. unfold xr, wr. cbn. apply Nat.eqb_neq in H. now rewrite H. Qed.
Lemma xr_eq m r v : r <> 31%nat -> xr (wr m r v) r = v.
Proof. intros H. rewrite xr_wr by auto. now rewrite Nat.eqb_refl. Qed.
Lemma xr_ne m r v s : s <> r -> xr (wr m r v) s = xr m s.
Proof. intros H. unfold xr, wr. cbn. destruct (Nat.eqb s 31); auto. apply Nat.eqb_neq in H. now rewrite H. Qed.
Lemma xr_wfl m n z c v s : xr (wfl m n z c v) s = xr m s. Proof. reflexivity. Qed.
Lemma xr_wm m a v s : xr (wm m a v) s = xr m s. Proof. reflexivity. Qed.
Lemma xr_wsp m v s : xr (wsp m v) s = xr m s. Proof. reflexivity. Qed.
Lemma xr_31 m : xr m 31%nat = 0. Proof. reflexivity. Qed.

(** all but the registers *)
Definition same (m m' : mach) : Prop := mem m' = mem m /\ mapd m' = mapd m /\ sp m' = sp m.
Definition samef (m m' : mach) : Prop := fN m' = fN m /\ fZ m' = fZ m /\ fC m' = fC m /\ fV m' = fV m.
Lemma same_refl m : same m m. Proof. repeat split. Qed.
Lemma same_trans a b c : same a b -> same b c -> same a c.
Proof. unfold same. intros (x & y & z) (u & v & w). repeat split; congruence. Qed.
Lemma same_area m m' p n : same m m' -> area m p n -> area m' p n.
Proof. intros (x & y & z). unfold area. now rewrite x, y. Qed.
Lemma same_room m m' p n : same m m' -> room m p n -> room m' p n.
Proof. intros (x & y & z). unfold room. now rewrite y. Qed.

Lemma ea_at m b p i n : xr m b = p -> 0 <= p -> p + 8 * Z.of_nat n <= B -> (i < n)%nat -> ea m b (off i) = p + off i.
Proof. intros E H1 H2 Hi. unfold ea. rewrite E. apply Z.mod_small. unfold off. lia. Qed.
Lemma off_8 i : off i + 8 = off (i + 1).
Proof. unfold off. lia. Qed.
Lemma al8 p i : p mod 8 = 0 -> (p + off i) mod 8 = 0.
Proof. intros H. unfold off. rewrite Z.mul_comm, Z.mod_add by lia. exact H. Qed.
Lemma acc_at m p n i : room m p n -> (i < n)%nat -> acc m (p + off i) = true.
Proof.
  intros (a & b & c & d) Hi. unfold acc. rewrite (d i Hi), (al8 p i c). reflexivity.
Qed.

Lemma ldw_ok lay v i b m p : xr m b = p -> room m p (length v) -> (i < length v)%nat ->
  ((i + 1 < length v)%nat -> ix v i <> ix v (i + 1) /\ ix v (i + 1) <> 31%nat) -> ix v i <> 31%nat ->
  exists m', exec lay (ldw v i b) m = Some m' /\ same m m' /\ samef m m' /\
    (Nat.even i = true -> xr m' (ix v i) = mem m (p + off i) /\
       ((i + 1 < length v)%nat -> xr m' (ix v (i + 1)) = mem m (p + off (i + 1)))) /\
    (forall r, (Nat.even i = true -> r <> ix v i /\ ((i + 1 < length v)%nat -> r <> ix v (i + 1))) -> xr m' r = xr m r).
Proof.
  intros Hp Hr Hi Hd H31. pose proof Hr as (R1 & R2 & R3 & R4). unfold ldw.
  destruct (Nat.even i) eqn:Ev.
  2:{ exists m. cbn. split; [reflexivity|]. split; [apply same_refl|]. split; [repeat split|]. split; [discriminate|]. auto. }
  destruct (Nat.eqb_spec i (length v - 1)) as [E|E].
  - exists (wr m (ix v i) (mem m (p + off i))). cbn [exec step].
    rewrite (ea_at m b p i (length v)), (acc_at m p (length v)) by auto.
    split; [reflexivity|]. split; [repeat split|]. split; [repeat split|]. split.
    + intros _. split; [apply xr_eq; auto|lia].
    + intros r Hr'. apply xr_ne. apply Hr'; auto.
  - assert (Hi' : (i + 1 < length v)%nat) by lia. destruct (Hd Hi') as [Hd1 Hd2].
    exists (wr (wr m (ix v i) (mem m (p + off i))) (ix v (i + 1)) (mem m (p + off (i + 1)))). cbn [exec step].
    rewrite off_8. rewrite (ea_at m b p i (length v)), (ea_at m b p (i + 1) (length v)), !(acc_at m p (length v)) by auto.
    apply Nat.eqb_neq in Hd1 as Hd1'. rewrite Hd1'. cbn [andb negb].
    split; [reflexivity|]. split; [repeat split|]. split; [repeat split|]. split.
    + intros _. split; [rewrite xr_ne by auto; apply xr_eq; auto|intros _; apply xr_eq; auto].
    + intros r Hr'. specialize (Hr' eq_refl) as [A1 A2]. rewrite !xr_ne; auto.
Qed.

Lemma stw_ok lay v i b m p : xr m b = p -> room m p (length v) -> (i < length v)%nat ->
  exists m', exec lay (stw v i b) m = Some m' /\ (forall r, xr m' r = xr m r) /\ samef m m' /\ sp m' = sp m /\ mapd m' = mapd m /\
    (Nat.even i = true -> mem m' (p + off i) = xr m (ix v i) /\
       ((i + 1 < length v)%nat -> mem m' (p + off (i + 1)) = xr m (ix v (i + 1)))) /\
    (forall a, (Nat.even i = true -> a <> p + off i /\ ((i + 1 < length v)%nat -> a <> p + off (i + 1))) -> mem m' a = mem m a).
Proof.
  intros Hp Hr Hi. pose proof Hr as (R1 & R2 & R3 & R4). unfold stw.
  destruct (Nat.even i) eqn:Ev.
  2:{ exists m. cbn. repeat (split; [auto; try reflexivity; try (repeat split; fail)|]); auto; try discriminate. }
  destruct (Nat.eqb_spec i (length v - 1)) as [E|E].
  - exists (wm m (p + off i) (xr m (ix v i))). cbn [exec step].
    rewrite (ea_at m b p i (length v)), (acc_at m p (length v)) by auto.
    repeat (split; [reflexivity || (repeat split; fail)|]). split.
    + intros _. split; [cbn [wm mem]; now rewrite Z.eqb_refl|lia].
    + intros a Ha. destruct (Ha eq_refl) as [Ha1 _]. cbn [wm mem]. apply Z.eqb_neq in Ha1. now rewrite Ha1.
  - assert (Hi' : (i + 1 < length v)%nat) by lia.
    exists (wm (wm m (p + off i) (xr m (ix v i))) (p + off (i + 1)) (xr m (ix v (i + 1)))). cbn [exec step].
    rewrite off_8. rewrite (ea_at m b p i (length v)), (ea_at m b p (i + 1) (length v)), !(acc_at m p (length v)) by auto.
    cbn [andb]. repeat (split; [reflexivity || (repeat split; fail)|]). split.
    + intros _. split.
      * cbn [wm mem]. assert (N : (p + off i =? p + off (i + 1)) = false) by (apply Z.eqb_neq; unfold off; lia).
        now rewrite N, Z.eqb_refl.
      * intros _. cbn [wm mem]. now rewrite Z.eqb_refl.
    + intros a Ha. destruct (Ha eq_refl) as [Ha1 Ha2]. specialize (Ha2 Hi'). cbn [wm mem].
      apply Z.eqb_neq in Ha1, Ha2. now rewrite Ha1, Ha2.
Qed.

(** one word of an addition or subtraction; the carry into word 0 is the one of the instruction *)
Definition cin (add : bool) (m : mach) (i : nat) : Z := if Nat.eqb i 0 then (if add then 0 else 1) else b2z (fC m).
Definition opb (add : bool) (y : Z) : Z := if add then y else inv64 y.
Definition addsub (add : bool) (r a b : reg) (i : nat) : instr := if add then addr r a b i else subr r a b i.
Lemma addsub_ok lay add r a b i m : r <> 31%nat ->
  let s := xr m a + opb add (xr m b) + cin add m i in
  exists m', exec lay [addsub add r a b i] m = Some m' /\ same m m' /\
    xr m' r = s mod B /\ fC m' = (B <=? s) /\ fZ m' = (s mod B =? 0) /\ (forall x, x <> r -> xr m' x = xr m x).
Proof.
  intros Hr s. subst s. unfold addsub, addr, subr, cin, opb.
  destruct add, (Nat.eqb i 0); cbn [exec step]; eexists; (split; [reflexivity|]);
    (split; [repeat split|]); cbn [awc fst snd];
    (split; [apply xr_eq; auto|]); (split; [reflexivity|]); (split; [reflexivity|]);
    intros x Hx; rewrite xr_ne by auto; reflexivity.
Qed.
Lemma carry_eq s : 0 <= s < 2 * B -> s = s mod B + b2z (B <=? s) * B.
Proof.
  intros H. unfold b2z. destruct (Z.leb_spec B s).
  - rewrite <- (Z_mod_plus_full s (-1) B). rewrite (Z.mod_small (s + -1 * B)); lia.
  - rewrite Z.mod_small; lia.
Qed.
Lemma b2z_01 b : 0 <= b2z b <= 1. Proof. destruct b; cbn; lia. Qed.

(** register lists *)
Lemma len_cyc l n : length (cyclicCopy l n) = n.
Proof. unfold cyclicCopy. now rewrite map_length, seq_length. Qed.
Lemma ix_cyc l n i : (i < n)%nat -> ix (cyclicCopy l n) i = ix l (i mod length l).
Proof.
  intros H. unfold cyclicCopy, ix.
  rewrite (nth_indep _ 31%nat ((fun i => nth (i mod length l) l 31%nat) 0%nat)) by now rewrite map_length, seq_length.
  rewrite (map_nth (fun i => nth (i mod length l) l 31%nat)). now rewrite seq_nth by auto.
Qed.
Lemma ix_over v i : (length v <= i)%nat -> ix v i = 31%nat.
Proof. apply nth_overflow. Qed.
Lemma ix_seq s k i : (i < k)%nat -> ix (seq s k) i = (s + i)%nat.
Proof. intros H. unfold ix. now rewrite seq_nth. Qed.
Lemma cyc_seq s k n i : (i < n)%nat -> (0 < k)%nat -> ix (cyclicCopy (seq s k) n) i = (s + i mod k)%nat.
Proof.
  intros H K. rewrite ix_cyc by auto. rewrite seq_length, ix_seq; auto. apply Nat.mod_upper_bound. lia.
Qed.
Lemma even_pair i k : Nat.even i = true -> Nat.even k = true -> (0 < k)%nat ->
  ((i + 1) mod k = i mod k + 1 /\ i mod k + 1 < k)%nat.
Proof.
  intros Hi Hk K. apply Nat.even_spec in Hi as [a ->]. apply Nat.even_spec in Hk as [b ->].
  assert (E : ((2 * a) mod (2 * b) = 2 * (a mod b))%nat) by (apply Nat.mul_mod_distr_l; lia).
  assert (a mod b < b)%nat by (apply Nat.mod_upper_bound; lia).
  assert (L : (2 * (a mod b) + 1 < 2 * b)%nat) by lia.
  rewrite E. split; [|lia].
  rewrite <- Nat.add_mod_idemp_l by lia. rewrite E. apply Nat.mod_small. lia.
Qed.
