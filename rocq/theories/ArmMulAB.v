(** The first row of the AArch64 multiplications: a word times a number. *)
From Coq Require Import ZArith List Bool Lia.
From Verif Require Import Limbs Arm ArmFacts ArmRaw ArmCmp ArmZero ArmChain ArmMulChain.
Import ListNotations.
Open Scope Z_scope.

Section AB.
  Variables (n : nat) (r : list reg) (b : opr) (ra : reg).
  Definition abbody (i : nat) : list instr :=
    ldo b i ++ (if Nat.eqb i 0 then [Mul (ix r i) (ix (fst b) i) ra]
                else [Mul 7 (ix (fst b) i) ra; addr (ix r i) (ix r i) 7%nat (i - 1)]) ++ [Umulh (ix r (i + 1)) (ix (fst b) i) ra].
  Definition absafe (i : nat) : bool :=
    let c := 31%nat :: ra :: bases b in
    disj (loads n b i) (c ++ map (ix r) (seq 0 (S i))) && distinct2 (loads n b i) &&
    disj [7%nat] (c ++ map (ix r) (seq 0 (S i)) ++ ix (fst b) i :: pend' n b i) &&
    disj [ix r i] (c ++ map (ix r) (seq 0 i) ++ ix (fst b) i :: pend' n b i) &&
    disj [ix r (i + 1)] (c ++ map (ix r) (seq 0 (S i)) ++ pend' n b i).
  Definition absafes : bool := lens n b && forallb absafe (seq 0 n).
  Definition abtouched : list reg :=
    7%nat :: map (ix r) (seq 0 (S n)) ++ (match snd b with Some _ => map (ix (fst b)) (seq 0 n) | None => [] end).

  Lemma ab_ok lay m y c : (0 < n)%nat -> absafes = true -> source n b y m -> xr m ra = c -> 0 <= c < B ->
    exists m', exec lay (flat_map abbody (seq 0 n) ++ (if Nat.ltb 1 n then [Adc (ix r n) (ix r n) 31] else [])) m = Some m' /\ same m m' /\
      (forall t, ~ In t abtouched -> xr m' t = xr m t) /\ (forall j, (j <= n)%nat -> 0 <= xr m' (ix r j) < B) /\
      sm (fun j => xr m' (ix r j)) (S n) = sm y n * c.
  Proof.
    intros Hn Hs [By Sb] Hc Bc. unfold absafes in Hs. apply andb_prop in Hs as [Hlb Hs]. rewrite forallb_forall in Hs.
    destruct (exec_loop lay abbody (fun i m' =>
       same m m' /\ (forall t, ~ In t abtouched -> xr m' t = xr m t) /\
       (forall t, In t (ra :: bases b) -> xr m' t = xr m t) /\ avail n b y i m' /\
       (forall j, (j < i)%nat -> 0 <= xr m' (ix r j) < B) /\
       ((0 < i)%nat -> 0 <= xr m' (ix r i) < B /\
        sm (fun j => xr m' (ix r j)) i + (xr m' (ix r i) + cin true m' (i - 1)) * B ^ Z.of_nat i = sm y i * c)) n m)
      as (m' & E & I1 & I2 & _ & _ & I3 & I4).
    - intros i m1 Hi (S1 & T1 & Bs1 & A1' & G1 & V1).
      specialize (Hs i ltac:(apply in_seq; lia)). unfold absafe in Hs. repeat (apply andb_prop in Hs as [Hs ?]).
      rename H into DN, H0 into DR, H1 into D7, H2 into D2. rename Hs into DL.
      assert (Pb : exists p, forall b0, snd b = Some b0 -> xr m1 b0 = p /\ room m1 p n /\ (forall j, (j < n)%nat -> mem m1 (p + off j) = y j)).
      { unfold bases in Bs1. destruct (snd b) as [b0|]; [|exists 0; discriminate].
        exists (xr m b0). intros b1 [= <-]. destruct Sb as [Hz1 Hz2]. pose proof S1 as (q1 & _).
        split; [apply Bs1; right; left; reflexivity|]. split; [apply (same_room m); auto|]. rewrite q1. exact Hz2. }
      destruct Pb as [p Pb].
      destruct (ldo_ok lay n b y i m1 p) as (m2 & E2 & S2 & F2 & K2 & V2 & W2); auto.
      { apply (disj_sub _ _ _ DL). intros t [<-|[]]. left. reflexivity. }
      assert (NL : forall t, In t ((31%nat :: ra :: bases b) ++ map (ix r) (seq 0 (S i))) -> xr m2 t = xr m1 t).
      { intros t Ht. apply K2. intros I. exact (disj_ok _ _ DL t I Ht). }
      pose proof (disj_ok _ _ D7 7%nat ltac:(left; reflexivity)) as N7.
      pose proof (disj_ok _ _ DR (ix r i) ltac:(left; reflexivity)) as NR.
      pose proof (disj_ok _ _ DN (ix r (i + 1)) ltac:(left; reflexivity)) as NN.
      rewrite !in_app_iff in N7, NR, NN. cbn [In] in N7, NR, NN.
      assert (Bse : forall t, In t (ra :: bases b) -> t <> 7%nat /\ t <> ix r i /\ t <> ix r (i + 1)).
      { intros t Ht. assert (Q : t = ra \/ In t (bases b)) by (destruct Ht; auto).
        repeat split; intros ->; [apply N7|apply NR|apply NN]; destruct Q as [Q|Q]; auto. }
      assert (Xra : xr m2 ra = c).
      { rewrite NL by (apply in_or_app; left; right; left; reflexivity). rewrite Bs1 by (left; reflexivity). exact Hc. }
      pose proof (Bse ra ltac:(left; reflexivity)) as (ra7 & rai & ran).
      assert (HR : ix r i <> 31%nat) by (intros Q; rewrite Q in NR; tauto).
      assert (HN : ix r (i + 1) <> 31%nat) by (intros Q; rewrite Q in NN; tauto).
      assert (HNi : ix r (i + 1) <> ix r i).
      { intros Q. apply NN. right. left. rewrite Q. apply in_seq_map. lia. }
      set (l := mv false (y i) c). set (h := mv true (y i) c).
      pose proof (mv_range false (y i) c (By i Hi) Bc) as Bl. pose proof (mv_range true (y i) c (By i Hi) Bc) as Bh. fold l in Bl. fold h in Bh.
      pose proof (Z.div_mod (y i * c) B ltac:(discriminate)) as D. change (y i * c / B) with h in D. change ((y i * c) mod B) with l in D.
      (* the low part is added *)
      assert (E3 : exists m3, exec lay (if Nat.eqb i 0 then [Mul (ix r i) (ix (fst b) i) ra]
                else [Mul 7 (ix (fst b) i) ra; addr (ix r i) (ix r i) 7%nat (i - 1)]) m2 = Some m3 /\ same m2 m3 /\
          (forall t, t <> 7%nat -> t <> ix r i -> xr m3 t = xr m2 t) /\ 0 <= xr m3 (ix r i) < B /\
          ((0 < i)%nat -> xr m3 (ix r i) + cin true m3 i * B = xr m1 (ix r i) + cin true m1 (i - 1) + l) /\
          (i = 0%nat -> xr m3 (ix r i) = l)).
      { destruct (Nat.eqb_spec i 0) as [->|Ni].
        - eexists. split; [reflexivity|]. split; [repeat split|]. split; [intros; apply xr_ne; auto|].
          rewrite xr_eq by exact HR. rewrite V2, Xra. split; [exact Bl|]. split; [lia|reflexivity].
        - set (ma := wr m2 7 l).
          assert (Ea : exec lay [Mul 7 (ix (fst b) i) ra] m2 = Some ma) by (unfold ma, l, mv; cbn [exec step]; rewrite V2, Xra; reflexivity).
          destruct (addsub_ok lay true (ix r i) (ix r i) 7%nat (i - 1) ma HR) as (m3 & E3 & S3 & X3 & C3 & _ & O3).
          cbn [opb] in X3, C3.
          assert (Xi : xr ma (ix r i) = xr m1 (ix r i)).
          { unfold ma. rewrite xr_ne. 2:{ intros Q. apply N7. right. left. rewrite <- Q. apply in_seq_map. lia. }
            apply NL. apply in_or_app. right. apply in_seq_map. lia. }
          assert (X7 : xr ma 7 = l) by (unfold ma; apply xr_eq; lia).
          assert (Cc : cin true ma (i - 1) = cin true m1 (i - 1)).
          { unfold cin, ma. cbn [fC wr]. destruct F2 as (_ & _ & F2 & _). now rewrite F2. }
          rewrite Xi, X7, Cc in *. destruct (V1 ltac:(lia)) as [Vb _].
          assert (C01 : 0 <= cin true m1 (i - 1) <= 1) by apply cin_01.
          exists m3. split.
          { change [Mul 7 (ix (fst b) i) ra; addr (ix r i) (ix r i) 7%nat (i - 1)] with ([Mul 7 (ix (fst b) i) ra] ++ [addsub true (ix r i) (ix r i) 7%nat (i - 1)]).
            rewrite (exec_app _ _ _ _ _ Ea). exact E3. }
          split; [exact S3|]. split.
          { intros t H7 Ht. rewrite O3 by exact Ht. unfold ma. apply xr_ne. exact H7. }
          split; [rewrite X3; apply Z.mod_pos_bound; reflexivity|]. split; [|lia].
          intros _. assert (Ci : cin true m3 i = b2z (fC m3)) by (unfold cin; apply Nat.eqb_neq in Ni; now rewrite Ni).
          rewrite Ci, C3, X3. set (s := xr m1 (ix r i) + l + cin true m1 (i - 1)) in *.
          pose proof (carry_eq s ltac:(lia)) as Q. unfold s in *. lia. }
      destruct E3 as (m3 & E3 & S3 & O3 & B3 & Q3 & Q3').
      assert (Xb3 : xr m3 (ix (fst b) i) = y i).
      { rewrite O3; [exact V2| |]; intros Q.
        - apply N7. right. right. left. exact Q.
        - apply NR. right. right. left. exact Q. }
      assert (Xra3 : xr m3 ra = c) by (rewrite O3; auto).
      set (m4 := wr m3 (ix r (i + 1)) h).
      assert (E4 : exec lay [Umulh (ix r (i + 1)) (ix (fst b) i) ra] m3 = Some m4) by (unfold m4, h, mv; cbn [exec step]; rewrite Xb3, Xra3; reflexivity).
      assert (Old : forall j, (j <= i)%nat -> xr m4 (ix r j) = xr m3 (ix r j)).
      { intros j Hj. unfold m4. apply xr_ne. intros Q. apply NN. right. left. rewrite <- Q. apply in_seq_map. lia. }
      assert (Old' : forall j, (j < i)%nat -> xr m3 (ix r j) = xr m1 (ix r j)).
      { intros j Hj. rewrite O3.
        - apply NL. apply in_or_app. right. apply in_seq_map. lia.
        - intros Q. apply N7. right. left. rewrite <- Q. apply in_seq_map. lia.
        - intros Q. apply NR. right. left. rewrite <- Q. apply in_seq_map. lia. }
      exists m4. split.
      { unfold abbody. rewrite (exec_app _ _ _ _ _ E2), (exec_app _ _ _ _ _ E3). exact E4. }
      split. { apply (same_trans _ m1); auto. apply (same_trans _ m2); auto. }
      split.
      { intros t Ht. pose proof Ht as Ht'. unfold abtouched in Ht'. cbn [In] in Ht'. rewrite in_app_iff in Ht'.
        unfold m4. rewrite xr_ne. 2:{ intros ->. apply Ht'. right. left. apply in_seq_map. lia. }
        rewrite O3. 2:{ intros ->. tauto. } 2:{ intros ->. apply Ht'. right. left. apply in_seq_map. lia. }
        rewrite K2; [auto|]. intros I. apply Ht'. right. right. unfold loads in I. destruct (snd b); [|destruct I]. destruct (Nat.even i); [|destruct I].
        destruct I as [<-|I]; [apply in_seq_map; lia|]. destruct (Nat.ltb_spec (i + 1) n); [|destruct I].
        destruct I as [<-|[]]. apply in_seq_map. lia. }
      split.
      { intros t Ht. destruct (Bse t Ht) as (t7 & ti & tn). unfold m4. rewrite xr_ne by auto. rewrite O3 by auto.
        rewrite NL; [auto|]. apply in_or_app. left. right. exact Ht. }
      split.
      { assert (Hp : forall t, In t (pend' n b i) -> xr m4 t = xr m2 t).
        { intros t Ht. unfold m4. rewrite xr_ne by (intros ->; tauto). apply O3; intros ->; tauto. }
        unfold avail, pend' in *. destruct (snd b).
        - intros Ev Hi'. rewrite ev_S in Ev. apply negb_false_iff in Ev.
          assert (Hi2 : (i + 1 < n)%nat) by lia. apply Nat.ltb_lt in Hi2 as Hi3. rewrite Ev, Hi3 in Hp.
          replace (S i) with (i + 1)%nat by lia. rewrite Hp by (left; reflexivity). apply W2; auto.
        - intros j Hj. rewrite Hp; [apply W2; lia|]. apply in_seq_map. lia. }
      split.
      { intros j Hj. rewrite Old by lia. destruct (Nat.eq_dec j i) as [->|N]; [exact B3|]. rewrite Old' by lia. apply G1. lia. }
      intros _. replace (ix r (S i)) with (ix r (i + 1)) by (f_equal; lia).
      assert (Xn : xr m4 (ix r (i + 1)) = h) by (unfold m4; apply xr_eq; exact HN). rewrite Xn. split; [exact Bh|].
      replace (S i - 1)%nat with i by lia.
      assert (C4 : cin true m4 i = cin true m3 i) by reflexivity. rewrite C4.
      cbn [sm]. rewrite Old by lia. rewrite (sm_ext _ (fun j => xr m1 (ix r j)) i) by (intros j Hj; rewrite Old by lia; apply Old'; lia).
      rewrite Nat2Z.inj_succ, Z.pow_succ_r by lia. set (P := B ^ Z.of_nat i) in *.
      destruct (Nat.eq_dec i 0) as [Ei|Ni].
      + rewrite Q3' by exact Ei. subst i. unfold P. cbn [sm cin Nat.eqb]. change (B ^ Z.of_nat 0) with 1.
        replace (cin true m3 0) with 0 by reflexivity. lia.
      + destruct (V1 ltac:(lia)) as [_ V]. specialize (Q3 ltac:(lia)).
        set (r3 := xr m3 (ix r i)) in *. set (c3 := cin true m3 i) in *. set (r1 := xr m1 (ix r i)) in *. set (c1 := cin true m1 (i - 1)) in *.
        replace (sm (fun j => xr m1 (ix r j)) i + r3 * P + (h + c3) * (B * P)) with (sm (fun j => xr m1 (ix r j)) i + (r3 + c3 * B) * P + h * B * P) by ring.
        rewrite Q3. replace ((sm y i + y i * P) * c) with (sm y i * c + (y i * c) * P) by ring. rewrite <- V, D. ring.
    - split; [apply same_refl|]. split; [auto|]. split; [auto|]. split.
      { unfold avail. destruct (snd b); [discriminate|]. intros j Hj. apply Sb. lia. }
      split; lia.
    - destruct (I4 Hn) as [Bn Q]. rewrite (exec_app _ _ _ _ _ E).
      pose proof (sm_bound _ n I3) as G. pose proof (sm_bound y n By) as Gy. set (P := B ^ Z.of_nat n) in *.
      destruct (Nat.ltb_spec 1 n).
      + assert (Cn : cin true m' (n - 1) = b2z (fC m')) by (unfold cin; destruct (Nat.eqb_spec (n - 1) 0); [lia|reflexivity]).
        rewrite Cn in Q. pose proof (b2z_01 (fC m')) as C01.
        specialize (Hs (n - 1)%nat ltac:(apply in_seq; lia)). unfold absafe in Hs. repeat (apply andb_prop in Hs as [Hs ?]).
        pose proof (disj_ok _ _ H0 (ix r (n - 1 + 1)) ltac:(left; reflexivity)) as NN. replace (n - 1 + 1)%nat with n in NN by lia.
        rewrite !in_app_iff in NN. cbn [In] in NN.
        assert (HN : ix r n <> 31%nat) by (intros Z; rewrite Z in NN; tauto).
        assert (Sm : xr m' (ix r n) + b2z (fC m') < B) by nia.
        eexists. split; [reflexivity|]. split; [exact I1|]. split.
        { intros t Ht. rewrite xr_ne; [auto|]. intros ->. apply Ht. right. apply in_or_app. left. apply in_seq_map. lia. }
        assert (X : forall j, (j < n)%nat -> xr (wr m' (ix r n) ((xr m' (ix r n) + xr m' 31 + b2z (fC m')) mod B)) (ix r j) = xr m' (ix r j)).
        { intros j Hj. apply xr_ne. intros Z. apply NN. right. left. rewrite <- Z. apply in_seq_map. lia. }
        split.
        { intros j Hj. destruct (Nat.eq_dec j n) as [->|N]; [rewrite xr_eq by exact HN; apply Z.mod_pos_bound; reflexivity|].
          rewrite X by lia. apply I3. lia. }
        cbn [sm]. rewrite xr_eq by exact HN. rewrite (sm_ext _ (fun j => xr m' (ix r j)) n) by (intros; apply X; auto).
        rewrite xr_31. rewrite Z.mod_small by lia. fold P. lia.
      + assert (n = 1)%nat as -> by lia. exists m'. split; [reflexivity|]. split; [exact I1|]. split; [exact I2|]. split.
        { intros j Hj. destruct (Nat.eq_dec j 1) as [->|N]; [exact Bn|]. apply I3. lia. }
        cbn [sm] in *. change (cin true m' (1 - 1)) with 0 in Q. fold P. lia.
  Qed.
End AB.
