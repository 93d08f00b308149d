(** Chains of multiplications and additions in AArch64 code. *)
From Coq Require Import ZArith List Bool Lia.
From Verif Require Import Limbs Arm ArmFacts ArmRaw ArmCmp ArmZero ArmChain.
Import ListNotations.
Open Scope Z_scope.

(** ** values *)
Definition mv (hi : bool) (x y : Z) : Z := if hi then x * y / B else (x * y) mod B.
Lemma mv_range hi x y : 0 <= x < B -> 0 <= y < B -> 0 <= mv hi x y < B.
Proof.
  intros Hx Hy. unfold mv. destruct hi.
  - split; [apply Z.div_pos; [nia|reflexivity]|]. apply Z.div_lt_upper_bound; [reflexivity|nia].
  - apply Z.mod_pos_bound. reflexivity.
Qed.
Lemma mv_split y c n : sm (fun j => mv false (y j) c) n + B * sm (fun j => mv true (y j) c) n = sm y n * c.
Proof.
  induction n as [|n IH]; cbn [sm]; [reflexivity|].
  set (P := B ^ Z.of_nat n). replace ((sm y n + y n * P) * c) with (sm y n * c + (y n * c) * P) by ring. rewrite <- IH.
  pose proof (Z.div_mod (y n * c) B ltac:(discriminate)) as D. unfold mv.
  set (h := y n * c / B) in *. set (l := (y n * c) mod B) in *. rewrite D. ring.
Qed.
Lemma sm_shift f n : sm f (S n) = f 0%nat + B * sm (fun j => f (S j)) n.
Proof.
  induction n as [|n IH]. { cbn. lia. }
  change (sm f (S (S n))) with (sm f (S n) + f (S n) * B ^ Z.of_nat (S n)). rewrite IH.
  cbn [sm]. rewrite Nat2Z.inj_succ, Z.pow_succ_r by lia. ring.
Qed.

(** ** one word *)
Definition mi (hi : bool) (t b ra : reg) : instr := if hi then Umulh t b ra else Mul t b ra.
Inductive akind := AFresh | ACont | ALast.
Definition addk (k : akind) (n i : nat) : reg -> reg -> reg -> instr :=
  match k with
  | AFresh => if Nat.eqb i 0 then Adds else Adcs
  | ACont => Adcs
  | ALast => if Nat.eqb i (n - 1) then Adc else Adcs
  end.
Definition c_in (k : akind) (m : mach) (i : nat) : Z :=
  match k with AFresh => if Nat.eqb i 0 then 0 else b2z (fC m) | _ => b2z (fC m) end.
Lemma c_in_01 k m i : 0 <= c_in k m i <= 1.
Proof. unfold c_in. destruct k; try destruct (Nat.eqb i 0); try apply b2z_01. lia. Qed.

Lemma addk_ok lay k n i r a b m : r <> 31%nat ->
  let s := xr m a + xr m b + c_in k m i in
  exists m', exec lay [addk k n i r a b] m = Some m' /\ same m m' /\ xr m' r = s mod B /\
    (k <> ALast \/ (i < n - 1)%nat -> fC m' = (B <=? s)) /\ (forall x, x <> r -> xr m' x = xr m x).
Proof.
  intros Hr s. subst s. unfold addk, c_in.
  assert (G : forall c, exists m', Some (wr (snd (awc m (xr m a) (xr m b) c)) r (fst (awc m (xr m a) (xr m b) c))) = Some m' /\ same m m' /\
     xr m' r = (xr m a + xr m b + c) mod B /\ fC m' = (B <=? xr m a + xr m b + c) /\ (forall x, x <> r -> xr m' x = xr m x)).
  { intros c. eexists. split; [reflexivity|]. split; [repeat split|]. cbn [awc fst snd]. split; [apply xr_eq; auto|]. split; [reflexivity|].
    intros x Hx. rewrite xr_ne by auto. reflexivity. }
  destruct k.
  - destruct (Nat.eqb i 0).
    + destruct (G 0) as (m' & E & S & X & F & O). exists m'. auto 10.
    + destruct (G (b2z (fC m))) as (m' & E & S & X & F & O). exists m'. auto 10.
  - destruct (G (b2z (fC m))) as (m' & E & S & X & F & O). exists m'. auto 10.
  - destruct (Nat.eqb_spec i (n - 1)).
    + eexists. split; [reflexivity|]. split; [repeat split|]. split; [apply xr_eq; auto|]. split.
      { intros [H|H]; [congruence|lia]. } intros x Hx. apply xr_ne; auto.
    + destruct (G (b2z (fC m))) as (m' & E & S & X & F & O). exists m'. auto 10.
Qed.

(** ** the chain *)
Section Chain.
  Variables (hi sw : bool) (k : akind) (n : nat) (T A R : nat -> reg) (b : opr) (ra : reg).
  Definition mbody (i : nat) : list instr :=
    ldo b i ++ [mi hi (T i) (ix (fst b) i) ra; if sw then addk k n i (R i) (T i) (A i) else addk k n i (R i) (A i) (T i)].
  Definition msafe (i : nat) : bool :=
    let rs := map R (seq 0 i) in
    disj (loads n b i) (31%nat :: ra :: bases b ++ rs ++ map A (seq i (n - i))) && distinct2 (loads n b i) &&
    disj [T i] (31%nat :: ra :: bases b ++ rs ++ map A (seq i (n - i)) ++ pend' n b i) &&
    disj [R i] (31%nat :: ra :: bases b ++ rs ++ map A (seq (S i) (n - S i)) ++ pend' n b i).
  Definition msafes : bool := lens n b && forallb msafe (seq 0 n).
  Definition mtouched : list reg :=
    map T (seq 0 n) ++ map R (seq 0 n) ++ (match snd b with Some _ => map (ix (fst b)) (seq 0 n) | None => [] end).

  Lemma mchain_ok lay m x y c : (0 < n)%nat -> msafes = true ->
    (forall j, (j < n)%nat -> xr m (A j) = x j /\ 0 <= x j < B) -> source n b y m -> xr m ra = c -> 0 <= c < B ->
    exists m', exec lay (flat_map mbody (seq 0 n)) m = Some m' /\ same m m' /\
      (forall t, ~ In t mtouched -> xr m' t = xr m t) /\ (forall j, (j < n)%nat -> 0 <= xr m' (R j) < B) /\
      exists co, 0 <= co <= 1 /\ (k <> ALast -> co = b2z (fC m')) /\
        sm (fun j => xr m' (R j)) n + co * B ^ Z.of_nat n = sm x n + sm (fun j => mv hi (y j) c) n + c_in k m 0.
  Proof.
    intros Hn Hs Hx [By Sb] Hc Bc. unfold msafes in Hs. apply andb_prop in Hs as [Hlb Hs]. rewrite forallb_forall in Hs.
    destruct (exec_loop lay mbody (fun i m' =>
       same m m' /\ (forall t, ~ In t mtouched -> xr m' t = xr m t) /\
       (forall t, In t (ra :: bases b) -> xr m' t = xr m t) /\
       (forall j, (i <= j < n)%nat -> xr m' (A j) = x j) /\ avail n b y i m' /\
       (forall j, (j < i)%nat -> 0 <= xr m' (R j) < B) /\
       exists co, 0 <= co <= 1 /\ ((k <> ALast \/ (i < n)%nat) -> (0 < i)%nat -> co = b2z (fC m')) /\
        (i = 0%nat -> co = c_in k m' 0) /\
        sm (fun j => xr m' (R j)) i + co * B ^ Z.of_nat i = sm x i + sm (fun j => mv hi (y j) c) i + c_in k m 0) n m)
      as (m' & E & I1 & I2 & _ & _ & _ & I3 & co & I4 & I5 & I6 & I7).
    - intros i m1 Hi (S1 & T1 & Bs1 & A1 & A1' & G1 & co & C1 & C2 & C3 & C4).
      specialize (Hs i ltac:(apply in_seq; lia)). unfold msafe in Hs. repeat (apply andb_prop in Hs as [Hs ?]).
      rename H into DR, H0 into DT, H1 into D2. rename Hs into DL.
      assert (Pb : exists p, forall b0, snd b = Some b0 -> xr m1 b0 = p /\ room m1 p n /\ (forall j, (j < n)%nat -> mem m1 (p + off j) = y j)).
      { unfold bases in Bs1. destruct (snd b) as [b0|]; [|exists 0; discriminate].
        exists (xr m b0). intros b1 [= <-]. destruct Sb as [Hz1 Hz2]. pose proof S1 as (q1 & _).
        split; [apply Bs1; right; left; reflexivity|]. split; [apply (same_room m); auto|]. rewrite q1. exact Hz2. }
      destruct Pb as [p Pb].
      destruct (ldo_ok lay n b y i m1 p) as (m2 & E2 & S2 & F2 & K2 & V2 & W2); auto.
      { apply (disj_sub _ _ _ DL). intros t [<-|[]]. left. reflexivity. }
      assert (NL : forall t, In t (31%nat :: ra :: bases b ++ map R (seq 0 i) ++ map A (seq i (n - i))) -> xr m2 t = xr m1 t).
      { intros t Ht. apply K2. intros I. exact (disj_ok _ _ DL t I Ht). }
      pose proof (disj_ok _ _ DT (T i) ltac:(left; reflexivity)) as NT.
      pose proof (disj_ok _ _ DR (R i) ltac:(left; reflexivity)) as NR.
      cbn [In] in NT, NR. rewrite !in_app_iff in NT, NR.
      assert (Xra : xr m2 ra = c).
      { rewrite NL by (right; left; reflexivity). rewrite Bs1 by (left; reflexivity). exact Hc. }
      set (u := mv hi (y i) c).
      set (m3 := wr m2 (T i) u).
      assert (E3 : exec lay [mi hi (T i) (ix (fst b) i) ra] m2 = Some m3).
      { unfold mi, m3, u, mv. destruct hi; cbn [exec step]; rewrite V2, Xra; reflexivity. }
      assert (X3 : forall t, t <> T i -> xr m3 t = xr m2 t) by (intros; apply xr_ne; auto).
      assert (XA : xr m3 (A i) = x i).
      { rewrite X3. 2:{ intros Q. assert (In (A i) (map A (seq i (n - i)))) by (apply in_seq_map; lia). rewrite Q in H. tauto. }
        rewrite NL. { apply A1. lia. } right. right. rewrite !in_app_iff. right. right. apply in_seq_map. lia. }
      assert (XT : xr m3 (T i) = u) by (apply xr_eq; intros Q; rewrite Q in NT; tauto).
      assert (HR : R i <> 31%nat) by (intros Q; rewrite Q in NR; tauto).
      assert (Ci : c_in k m3 i = co).
      { destruct (Nat.eq_dec i 0) as [->|Ni].
        - rewrite C3 by reflexivity. unfold c_in. destruct F2 as (_ & _ & F2 & _). cbn [Nat.eqb]. unfold m3. cbn [fC wr]. now rewrite F2.
        - rewrite C2 by (auto; lia). unfold c_in. destruct F2 as (_ & _ & F2 & _). apply Nat.eqb_neq in Ni. rewrite Ni. unfold m3. cbn [fC wr]. rewrite F2. destruct k; reflexivity. }
      assert (E4 : exists m4, exec lay [if sw then addk k n i (R i) (T i) (A i) else addk k n i (R i) (A i) (T i)] m3 = Some m4 /\ same m3 m4 /\
         xr m4 (R i) = (x i + u + co) mod B /\ (k <> ALast \/ (i < n - 1)%nat -> fC m4 = (B <=? x i + u + co)) /\ (forall z, z <> R i -> xr m4 z = xr m3 z)).
      { destruct sw.
        - destruct (addk_ok lay k n i (R i) (T i) (A i) m3 HR) as (m4 & E4 & S4 & X4 & F4 & O4).
          rewrite XA, XT, Ci in *. replace (u + x i + co) with (x i + u + co) in * by ring. exists m4. auto 10.
        - destruct (addk_ok lay k n i (R i) (A i) (T i) m3 HR) as (m4 & E4 & S4 & X4 & F4 & O4).
          rewrite XA, XT, Ci in *. exists m4. auto 10. }
      destruct E4 as (m4 & E4 & S4 & X4 & F4 & O4).
      assert (Old : forall j, (j < i)%nat -> xr m4 (R j) = xr m1 (R j)).
      { intros j Hj. assert (Ij : In (R j) (map R (seq 0 i))) by (apply in_seq_map; lia).
        rewrite O4 by (intros Q; rewrite Q in Ij; tauto). rewrite X3 by (intros Q; rewrite Q in Ij; tauto).
        apply NL. right. right. rewrite !in_app_iff. auto. }
      exists m4. split.
      { unfold mbody. rewrite (exec_app _ _ _ _ _ E2).
        change [mi hi (T i) (ix (fst b) i) ra; if sw then addk k n i (R i) (T i) (A i) else addk k n i (R i) (A i) (T i)]
          with ([mi hi (T i) (ix (fst b) i) ra] ++ [if sw then addk k n i (R i) (T i) (A i) else addk k n i (R i) (A i) (T i)]).
        rewrite (exec_app _ _ _ _ _ E3). exact E4. }
      split. { apply (same_trans _ m1); auto. apply (same_trans _ m2); auto. }
      split.
      { intros t Ht. pose proof Ht as Ht'. unfold mtouched in Ht'. rewrite !in_app_iff in Ht'.
        rewrite O4. 2:{ intros ->. apply Ht'. right. left. apply in_seq_map. lia. }
        rewrite X3. 2:{ intros ->. apply Ht'. left. apply in_seq_map. lia. }
        rewrite K2; [auto|]. intros I. apply Ht'. right. right. unfold loads in I. destruct (snd b); [|destruct I]. destruct (Nat.even i); [|destruct I].
        destruct I as [<-|I]; [apply in_seq_map; lia|]. destruct (Nat.ltb_spec (i + 1) n); [|destruct I].
        destruct I as [<-|[]]. apply in_seq_map. lia. }
      split.
      { intros t Ht. assert (Ht2 : In t (31%nat :: ra :: bases b ++ map R (seq 0 i) ++ map A (seq i (n - i)))).
        { destruct Ht as [<-|Ht]; [right; left; reflexivity|]. right. right. apply in_or_app. left. exact Ht. }
        rewrite O4. 2:{ intros ->. destruct Ht as [Q|Ht]; [apply NR; auto|]. apply NR. auto. }
        rewrite X3. 2:{ intros ->. destruct Ht as [Q|Ht]; [apply NT; auto|]. apply NT. auto. }
        rewrite NL by exact Ht2. auto. }
      split.
      { intros j Hj. assert (Ij : In (A j) (map A (seq (S i) (n - S i)))) by (apply in_seq_map; lia).
        assert (Ij' : In (A j) (map A (seq i (n - i)))) by (apply in_seq_map; lia).
        rewrite O4 by (intros Q; rewrite Q in Ij; tauto). rewrite X3 by (intros Q; rewrite Q in Ij'; tauto).
        rewrite NL by (right; right; rewrite !in_app_iff; auto). apply A1. lia. }
      split.
      { assert (Hp : forall t, In t (pend' n b i) -> xr m4 t = xr m2 t).
        { intros t Ht. rewrite O4 by (intros ->; tauto). apply X3. intros ->. tauto. }
        unfold avail, pend' in *. destruct (snd b).
        - intros Ev Hi'. rewrite ev_S in Ev. apply negb_false_iff in Ev.
          assert (Hi2 : (i + 1 < n)%nat) by lia. apply Nat.ltb_lt in Hi2 as Hi3. rewrite Ev, Hi3 in Hp.
          replace (S i) with (i + 1)%nat by lia. rewrite Hp by (left; reflexivity). apply W2; auto.
        - intros j Hj. rewrite Hp; [apply W2; lia|]. apply in_seq_map. lia. }
      split.
      { intros j Hj. destruct (Nat.eq_dec j i) as [->|N]. { rewrite X4. apply Z.mod_pos_bound. reflexivity. }
        rewrite Old by lia. apply G1. lia. }
      pose proof (proj2 (Hx i Hi)) as Bx. pose proof (mv_range hi (y i) c (By i Hi) Bc) as Bu. fold u in Bu.
      exists (b2z (B <=? x i + u + co)). split; [apply b2z_01|]. split.
      { intros Hk _. rewrite F4; [reflexivity|]. destruct Hk; [auto|right; lia]. }
      split; [discriminate|].
      cbn [sm]. rewrite X4. rewrite (sm_ext _ (fun j => xr m1 (R j)) i) by (intros; apply Old; auto).
      pose proof (carry_eq (x i + u + co) ltac:(lia)) as Q.
      rewrite Nat2Z.inj_succ, Z.pow_succ_r by lia. fold u.
      set (P := B ^ Z.of_nat i) in *. set (r := (x i + u + co) mod B) in *. set (cc := b2z (B <=? x i + u + co)) in *.
      replace (sm (fun j => xr m1 (R j)) i + r * P + cc * (B * P)) with (sm (fun j => xr m1 (R j)) i + (r + cc * B) * P) by ring.
      rewrite <- Q. replace ((x i + u + co) * P) with (x i * P + u * P + co * P) by ring. lia.
    - split; [apply same_refl|]. split; [auto|]. split; [auto|]. split; [intros j Hj; apply Hx; lia|]. split.
      { unfold avail. destruct (snd b); [discriminate|]. intros j Hj. apply Sb. lia. }
      split; [lia|]. exists (c_in k m 0). split; [apply c_in_01|]. split; [lia|]. split; [auto|]. cbn [sm]. change (B ^ Z.of_nat 0) with 1. lia.
    - exists m'. split; [exact E|]. split; [exact I1|]. split; [exact I2|]. split; [exact I3|]. exists co. split; [exact I4|]. split; [intros; apply I5; auto|exact I7].
  Qed.
End Chain.
