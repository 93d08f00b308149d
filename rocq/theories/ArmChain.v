(** Carry chains of the AArch64 code over words in registers, with operands loaded on the way. *)
From Coq Require Import ZArith List Bool Lia.
From Verif Require Import Limbs Arm ArmFacts ArmRaw ArmCmp.
Import ListNotations.
Open Scope Z_scope.

(** An operand: register list and, when it is loaded from memory, the base register *)
Definition opr : Type := list reg * option reg.
Definition ldo (o : opr) (i : nat) : list instr := match snd o with Some b => ldw (fst o) i b | None => [] end.
Definition chainbody (add : bool) (r : list reg) (a b : opr) (i : nat) : list instr :=
  ldo a i ++ ldo b i ++ [addsub add (ix r i) (ix (fst a) i) (ix (fst b) i) i].

(** the registers that a load at word [i] writes *)
Definition loads (n : nat) (o : opr) (i : nat) : list reg :=
  match snd o with
  | Some _ => if Nat.even i then ix (fst o) i :: (if Nat.ltb (i + 1) n then [ix (fst o) (i + 1)] else []) else []
  | None => []
  end.
(** the registers of the operand needed later than the load at word [i], resp. than the operation *)
Definition pend (n : nat) (o : opr) (i : nat) : list reg :=
  match snd o with
  | Some _ => ix (fst o) i :: (if Nat.even i && Nat.ltb (i + 1) n then [ix (fst o) (i + 1)] else [])
  | None => map (ix (fst o)) (seq i (n - i))
  end.
Definition pend' (n : nat) (o : opr) (i : nat) : list reg :=
  match snd o with
  | Some _ => if Nat.even i && Nat.ltb (i + 1) n then [ix (fst o) (i + 1)] else []
  | None => map (ix (fst o)) (seq (S i) (n - S i))
  end.
Definition bases (o : opr) : list reg := match snd o with Some b => [b] | None => [] end.
Definition isin (r : reg) (l : list reg) : bool := existsb (Nat.eqb r) l.
Definition disj (a b : list reg) : bool := forallb (fun r => negb (isin r b)) a.
Definition distinct2 (l : list reg) : bool := match l with [a; b] => negb (Nat.eqb a b) | _ => true end.
(** no value that is still needed is overwritten at word [i] *)
Definition safe (n : nat) (r : list reg) (a b : opr) (i : nat) : bool :=
  let rs := map (ix r) (seq 0 i) in
  disj (loads n a i) (31%nat :: bases a ++ bases b ++ rs) && disj (loads n b i) (31%nat :: bases a ++ bases b ++ rs) &&
  distinct2 (loads n a i) && distinct2 (loads n b i) &&
  disj (loads n a i) (match snd b with None => pend n b i | _ => if Nat.even i then [] else pend n b i end) &&
  disj (loads n b i) (pend n a i) &&
  disj [ix r i] (31%nat :: bases a ++ bases b ++ rs ++ pend' n a i ++ pend' n b i).
Definition lens (n : nat) (o : opr) : bool := match snd o with Some _ => Nat.eqb (length (fst o)) n | None => true end.
Definition safes (n : nat) (r : list reg) (a b : opr) : bool := lens n a && lens n b && forallb (safe n r a b) (seq 0 n).

Lemma isin_false r l : isin r l = false <-> ~ In r l.
Proof.
  unfold isin. split.
  - intros H I. assert (existsb (Nat.eqb r) l = true) by (apply existsb_exists; exists r; split; [exact I|apply Nat.eqb_refl]). congruence.
  - intros H. apply not_true_is_false. intros E. apply existsb_exists in E as (x & I & E). apply Nat.eqb_eq in E. subst. auto.
Qed.
Lemma disj_ok a b : disj a b = true -> forall r, In r a -> ~ In r b.
Proof. unfold disj. rewrite forallb_forall. intros H r Hr. specialize (H r Hr). apply negb_true_iff, isin_false in H. exact H. Qed.

(** what an operand's registers hold at the start of word [i] *)
Definition avail (n : nat) (o : opr) (x : nat -> Z) (i : nat) (m : mach) : Prop :=
  match snd o with
  | Some _ => Nat.even i = false -> (i < n)%nat -> xr m (ix (fst o) i) = x i
  | None => forall j, (i <= j < n)%nat -> xr m (ix (fst o) j) = x j
  end.
(** where its words are *)
Definition source (n : nat) (o : opr) (x : nat -> Z) (m : mach) : Prop :=
  (forall j, (j < n)%nat -> 0 <= x j < B) /\
  match snd o with
  | Some b => room m (xr m b) n /\ (forall j, (j < n)%nat -> mem m (xr m b + off j) = x j)
  | None => forall j, (j < n)%nat -> xr m (ix (fst o) j) = x j
  end.

Lemma ldo_ok lay n o x i m p : lens n o = true -> (i < n)%nat ->
  (forall b, snd o = Some b -> xr m b = p /\ room m p n /\ (forall j, (j < n)%nat -> mem m (p + off j) = x j)) ->
  disj (loads n o i) [31%nat] = true -> distinct2 (loads n o i) = true -> avail n o x i m ->
  exists m', exec lay (ldo o i) m = Some m' /\ same m m' /\ samef m m' /\
    (forall r, ~ In r (loads n o i) -> xr m' r = xr m r) /\
    xr m' (ix (fst o) i) = x i /\
    match snd o with
    | Some _ => Nat.even i = true -> (i + 1 < n)%nat -> xr m' (ix (fst o) (i + 1)) = x (i + 1)%nat
    | None => forall j, (i <= j < n)%nat -> xr m' (ix (fst o) j) = x j
    end.
Proof.
  destruct o as [v [b|]]; unfold lens, avail, ldo, loads; cbn [fst snd]; intros Hl Hi Hs D1 D2 A.
  2:{ exists m. split; [reflexivity|]. split; [apply same_refl|]. split; [repeat split|]. split; [auto|]. split; [apply A; lia|exact A]. }
  apply Nat.eqb_eq in Hl. destruct (Hs b eq_refl) as (P1 & P2 & P3).
  pose proof (disj_ok _ _ D1) as D.
  destruct (Nat.even i) eqn:Ev.
  2:{ exists m. split; [now apply ldw_odd|]. split; [apply same_refl|]. split; [repeat split|]. split; [auto|]. split; [apply A; auto|discriminate]. }
  destruct (ldw_ok lay v i b m p) as (m' & E & S & F & L & K).
  { exact P1. } { now rewrite Hl. } { lia. }
  { intros Hi'. rewrite Hl in Hi'. apply Nat.ltb_lt in Hi'. rewrite Hi' in D, D2. split.
    - cbn [distinct2] in D2. apply negb_true_iff, Nat.eqb_neq in D2. exact D2.
    - intros E. apply (D (ix v (i + 1))); [right; left; reflexivity|left; auto]. }
  { intros E. apply (D (ix v i)); [left; reflexivity|left; auto]. }
  destruct (L Ev) as [La Lb]. rewrite Hl in *.
  exists m'. split; [exact E|]. split; [exact S|]. split; [exact F|]. split.
  - intros r Hr. apply K. intros _. split.
    + intros ->. apply Hr. left. reflexivity.
    + intros Hi' ->. apply Hr. apply Nat.ltb_lt in Hi'. rewrite Hi'. right. left. reflexivity.
  - split; [rewrite La; apply P3; lia|]. intros _ Hi'. rewrite Lb by lia. apply P3. lia.
Qed.

Lemma disj_sub a b c : disj a b = true -> (forall r, In r c -> In r b) -> disj a c = true.
Proof.
  intros H S. unfold disj. apply forallb_forall. intros r Hr. apply negb_true_iff, isin_false. intros I.
  exact (disj_ok _ _ H r Hr (S r I)).
Qed.
Lemma in_seq_map (f : nat -> reg) s k j : (s <= j < s + k)%nat -> In (f j) (map f (seq s k)).
Proof. intros H. apply in_map. apply in_seq. lia. Qed.

Definition touched (n : nat) (r : list reg) (a b : opr) : list reg :=
  map (ix r) (seq 0 n) ++ (match snd a with Some _ => map (ix (fst a)) (seq 0 n) | None => [] end) ++
  (match snd b with Some _ => map (ix (fst b)) (seq 0 n) | None => [] end).

(** the first operand's registers are not written again *)
Definition keepa (n : nat) (r : list reg) (a b : opr) : bool :=
  forallb (fun i => disj (map (ix (fst a)) (seq 0 i)) (loads n a i ++ loads n b i) && disj (map (ix (fst a)) (seq 0 (S i))) [ix r i]) (seq 0 n).

Lemma chain_ok lay n add r a b x y m : (0 < n)%nat -> safes n r a b = true -> source n a x m -> source n b y m ->
  exists m', exec lay (flat_map (chainbody add r a b) (seq 0 n)) m = Some m' /\ same m m' /\
    (forall t, ~ In t (touched n r a b) -> xr m' t = xr m t) /\
    (forall j, (j < n)%nat -> 0 <= xr m' (ix r j) < B) /\
    chain add x y (fun j => xr m' (ix r j)) (b2z (fC m')) n /\
    (keepa n r a b = true -> forall j, (j < n)%nat -> xr m' (ix (fst a) j) = x j).
Proof.
  intros Hn Hsafe Sa Sb. unfold safes in Hsafe. apply andb_prop in Hsafe as [Hl Hsafe]. apply andb_prop in Hl as [Hla Hlb].
  rewrite forallb_forall in Hsafe.
  destruct Sa as [Bx Sa]. destruct Sb as [By Sb].
  destruct (exec_loop lay (chainbody add r a b) (fun i m' =>
     same m m' /\ (forall t, ~ In t (touched n r a b) -> xr m' t = xr m t) /\
     (forall t, In t (bases a ++ bases b) -> xr m' t = xr m t) /\
     avail n a x i m' /\ avail n b y i m' /\
     (forall j, (j < i)%nat -> 0 <= xr m' (ix r j) < B) /\ chain add x y (fun j => xr m' (ix r j)) (cin add m' i) i /\
     (keepa n r a b = true -> forall j, (j < i)%nat -> xr m' (ix (fst a) j) = x j)) n m)
    as (m' & E & I1 & I2 & _ & _ & _ & I3 & I4 & I5).
  - intros i m1 Hi (S1 & T1 & Bs1 & A1 & A1' & G1 & C1 & Kp1).
    assert (Hs := Hsafe i ltac:(apply in_seq; lia)). unfold safe in Hs.
    repeat (apply andb_prop in Hs as [Hs ?]).
    rename H into Dr, H0 into Dba, H1 into Dab, H2 into D2b, H3 into D2a, H4 into Db. rename Hs into Da.
    assert (Src : forall o z m2, same m m2 -> (forall b0, snd o = Some b0 -> xr m2 b0 = xr m b0) ->
              match snd o with
              | Some b => room m (xr m b) n /\ (forall j, (j < n)%nat -> mem m (xr m b + off j) = z j)
              | None => forall j, (j < n)%nat -> xr m (ix (fst o) j) = z j end ->
              exists p, forall b0, snd o = Some b0 -> xr m2 b0 = p /\ room m2 p n /\ (forall j, (j < n)%nat -> mem m2 (p + off j) = z j)).
    { intros o z m2 S2 Hb Hz. destruct (snd o) as [b0|]; [|exists 0; discriminate].
      exists (xr m b0). intros b1 [= <-]. destruct Hz as [Hz1 Hz2]. pose proof S2 as (q1 & _).
      split; [auto|]. split; [apply (same_room m); auto|]. rewrite q1. exact Hz2. }
    assert (Ba : forall b0, snd a = Some b0 -> In b0 (bases a ++ bases b)) by (intros b0 E0; apply in_or_app; left; unfold bases; rewrite E0; left; reflexivity).
    assert (Bb : forall b0, snd b = Some b0 -> In b0 (bases a ++ bases b)) by (intros b0 E0; apply in_or_app; right; unfold bases; rewrite E0; left; reflexivity).
    destruct (Src a x m1 S1 ltac:(intros; apply Bs1, Ba; auto) Sa) as [pa Pa].
    destruct (ldo_ok lay n a x i m1 pa) as (m2 & E2 & S2 & F2 & K2 & V2 & W2); auto.
    { apply (disj_sub _ _ _ Da). intros t [<-|[]]. left. reflexivity. }
    assert (Bs2 : forall t, In t (bases a ++ bases b) -> xr m2 t = xr m t).
    { intros t Ht. rewrite K2; [auto|]. intros I. apply (disj_ok _ _ Da t I). right. rewrite app_assoc. apply in_or_app. left. exact Ht. }
    destruct (Src b y m2 (same_trans _ _ _ S1 S2) ltac:(intros; apply Bs2, Bb; auto) Sb) as [pb Pb].
    destruct (ldo_ok lay n b y i m2 pb) as (m3 & E3 & S3 & F3 & K3 & V3 & W3); auto.
    { apply (disj_sub _ _ _ Db). intros t [<-|[]]. left. reflexivity. }
    { pose proof (disj_ok _ _ Dab) as Q. unfold avail in *. destruct (snd b) as [b0|] eqn:Eb.
      - intros Ev Hi'. rewrite K2; [auto|]. intros I. rewrite Ev in Q. apply (Q _ I). unfold pend. rewrite Eb. left. reflexivity.
      - intros j Hj. rewrite K2; [auto|]. intros I. apply (Q _ I). unfold pend. rewrite Eb. apply in_seq_map. lia. }
    assert (Xa : forall t, In t (pend n a i) -> xr m3 t = xr m2 t).
    { intros t Ht. apply K3. intros I. exact (disj_ok _ _ Dba t I Ht). }
    assert (V2' : xr m3 (ix (fst a) i) = x i).
    { rewrite Xa; [exact V2|]. unfold pend. destruct (snd a); [left; reflexivity|]. apply in_seq_map. lia. }
    destruct (addsub_ok lay add (ix r i) (ix (fst a) i) (ix (fst b) i) i m3) as (m4 & E4 & S4 & X4 & C4 & _ & F4).
    { intros Q. apply (disj_ok _ _ Dr (ix r i)); [left; reflexivity|left; auto]. }
    rewrite V2', V3 in *.
    assert (Ci : cin add m3 i = cin add m1 i).
    { unfold cin. destruct F2 as (_ & _ & F2 & _). destruct F3 as (_ & _ & F3 & _). now rewrite F3, F2. }
    rewrite Ci in *. set (s := x i + opb add (y i) + cin add m1 i) in *.
    pose proof (disj_ok _ _ Dr (ix r i) ltac:(left; reflexivity)) as Nr. cbn [In] in Nr. rewrite !in_app_iff in Nr.
    assert (Old : forall j, (j < i)%nat -> xr m4 (ix r j) = xr m1 (ix r j)).
    { intros j Hj. assert (Ij : In (ix r j) (map (ix r) (seq 0 i))) by (apply in_seq_map; lia).
      rewrite F4 by (intros Q; rewrite Q in Ij; tauto).
      rewrite K3, K2; [reflexivity| |]; intros I.
      - apply (disj_ok _ _ Da _ I). right. rewrite !in_app_iff. auto.
      - apply (disj_ok _ _ Db _ I). right. rewrite !in_app_iff. auto. }
    exists m4. split.
    { unfold chainbody. rewrite (exec_app _ _ _ _ _ E2), (exec_app _ _ _ _ _ E3). exact E4. }
    split. { apply (same_trans _ m1); auto. apply (same_trans _ m2); auto. apply (same_trans _ m3); auto. }
    split.
    { intros t Ht. unfold touched in Ht. rewrite !in_app_iff in Ht.
      rewrite F4. 2:{ intros ->. apply Ht. left. apply in_seq_map. lia. }
      rewrite K3, K2.
      - apply T1. unfold touched. rewrite !in_app_iff. exact Ht.
      - intros I. apply Ht. right. left. unfold loads in I. destruct (snd a); [|destruct I]. destruct (Nat.even i); [|destruct I].
        destruct I as [<-|I]; [apply in_seq_map; lia|]. destruct (Nat.ltb_spec (i + 1) n); [|destruct I].
        destruct I as [<-|[]]. apply in_seq_map. lia.
      - intros I. apply Ht. right. right. unfold loads in I. destruct (snd b); [|destruct I]. destruct (Nat.even i); [|destruct I].
        destruct I as [<-|I]; [apply in_seq_map; lia|]. destruct (Nat.ltb_spec (i + 1) n); [|destruct I].
        destruct I as [<-|[]]. apply in_seq_map. lia. }
    split.
    { intros t Ht. rewrite F4. 2:{ intros ->. rewrite in_app_iff in Ht. tauto. }
      rewrite K3; [auto|]. intros I. apply (disj_ok _ _ Db _ I). right. rewrite app_assoc, in_app_iff. auto. }
    assert (Av : forall o z, (forall t, In t (pend' n o i) -> xr m4 t = xr m3 t) ->
       match snd o with
       | Some _ => Nat.even i = true -> (i + 1 < n)%nat -> xr m3 (ix (fst o) (i + 1)) = z (i + 1)%nat
       | None => forall j, (i <= j < n)%nat -> xr m3 (ix (fst o) j) = z j end -> avail n o z (S i) m4).
    { intros o z Hp Hz. unfold avail, pend' in *. destruct (snd o).
      - intros Ev Hi'. rewrite ev_S in Ev. apply negb_false_iff in Ev.
        assert (Hi2 : (i + 1 < n)%nat) by lia. apply Nat.ltb_lt in Hi2 as Hi3. rewrite Ev, Hi3 in Hp.
        replace (S i) with (i + 1)%nat by lia. rewrite Hp by (left; reflexivity). apply Hz; auto.
      - intros j Hj. rewrite Hp; [apply Hz; lia|]. apply in_seq_map. lia. }
    split.
    { apply Av. { intros t Ht. apply F4. intros ->. tauto. }
      unfold pend in Xa. destruct (snd a).
      - intros Ev Hi'. rewrite Xa; [auto|]. apply Nat.ltb_lt in Hi'. rewrite Ev, Hi'. right. left. reflexivity.
      - intros j Hj. rewrite Xa; [auto|]. apply in_seq_map. lia. }
    split.
    { apply Av. { intros t Ht. apply F4. intros ->. tauto. } exact W3. }
    split.
    { intros j Hj. destruct (Nat.eq_dec j i) as [->|N]. { rewrite X4. apply Z.mod_pos_bound. reflexivity. }
      rewrite Old by lia. apply G1. lia. }
    split.
    { rewrite cin_S, C4. apply (chain_S add x y _ (cin add m1 i) i); auto. { apply cin_01. }
      unfold chain in *. rewrite <- C1. f_equal. apply sm_ext. intros j Hj. apply Old. exact Hj. }
    intros Hk. pose proof Hk as Hk'. unfold keepa in Hk'. rewrite forallb_forall in Hk'. specialize (Hk' i ltac:(apply in_seq; lia)).
    apply andb_prop in Hk' as [Dl Dw]. intros j Hj.
    rewrite F4. 2:{ intros Q. apply (disj_ok _ _ Dw (ix (fst a) j)); [apply in_seq_map; lia|left; auto]. }
    destruct (Nat.eq_dec j i) as [->|N]; [exact V2'|].
    assert (Nl : ~ In (ix (fst a) j) (loads n a i ++ loads n b i)) by (apply (disj_ok _ _ Dl), in_seq_map; lia).
    rewrite in_app_iff in Nl. rewrite K3, K2 by tauto. apply Kp1; auto. lia.
  - split; [apply same_refl|]. split; [auto|]. split; [auto|].
    assert (A0 : forall o z, match snd o with
              | Some b => room m (xr m b) n /\ (forall j, (j < n)%nat -> mem m (xr m b + off j) = z j)
              | None => forall j, (j < n)%nat -> xr m (ix (fst o) j) = z j end -> avail n o z 0 m).
    { intros o z Hz. unfold avail. destruct (snd o); [discriminate|]. intros j Hj. apply Hz. lia. }
    split; [apply A0, Sa|]. split; [apply A0, Sb|]. split; [lia|]. split; [apply chain_0|lia].
  - exists m'. split; [exact E|]. split; [exact I1|]. split; [exact I2|]. split; [exact I3|]. split; [|exact I5].
    assert (Ec : cin add m' n = b2z (fC m')) by (unfold cin; destruct n; [lia|reflexivity]). now rewrite <- Ec.
Qed.
