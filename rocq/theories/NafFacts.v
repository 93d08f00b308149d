(** Facts about NAF recoding, NAF multiplication, log2. *)
From Coq Require Import ZArith List Lia Bool.
From Verif Require Import Bytes BytesFacts Group Naf.
Import ListNotations.
Open Scope Z_scope.
Ltac Zify.zify_post_hook ::= idtac.

(** Specification: digit coding 0, 1, 2 = 0, 1, -1 *)
Definition naf_digit (d : Z) : Z := if d =? 2 then -1 else d.
Fixpoint naf_val (l : list Z) : Z := match l with [] => 0 | d :: l => naf_digit d + 2 * naf_val l end.
Fixpoint nonadj (l : list Z) : bool :=
  match l with
  | d :: (e :: _) as l' => ((d =? 0) || (e =? 0)) && nonadj l'
  | _ => true
  end.
Definition trit (d : Z) : bool := (d =? 0) || (d =? 1) || (d =? 2).

Definition b2z (b : bool) : Z := if b then 1 else 0.

(** Everything about one table entry, as a boolean over 0..1023. *)
Definition entry_ok (inp : Z) : bool :=
  let rs := naf_entry inp in
  let carry := negb (Z.land rs 4 =? 0) in
  let last := negb (Z.land rs 8 =? 0) in
  let ds := unword8 8 (Z.land rs 0x0303030303030303) in
  (inp mod 512 + 2 * (inp / 512) =? naf_val ds + 256 * (b2z last + 2 * b2z carry))
  && forallb trit ds && nonadj ds
  && (Z.odd inp || (nth 0 ds 0 =? 0)) && ((nth 7 ds 0 =? 0) || negb last)
  && negb (last && carry)
  && (negb (inp =? 0) || (rs =? 0)) && (negb (inp =? 1) || (rs =? 1)) && (negb (inp =? 512) || (rs =? 256)).
Fixpoint upto (k : nat) : list Z := match k with O => [] | S k => upto k ++ [Z.of_nat k] end.
Lemma in_upto k x : 0 <= x < Z.of_nat k -> In x (upto k).
Proof.
  induction k as [|k IH]; [lia|]. intros H. cbn [upto]. apply in_or_app.
  destruct (Z.eq_dec x (Z.of_nat k)); [right; left; auto|left; apply IH; lia].
Qed.
Lemma all_entries : forallb entry_ok (upto (Z.to_nat 1024)) = true.
Proof. vm_compute. reflexivity. Qed.
Lemma entry_ok_all inp : 0 <= inp < 1024 -> entry_ok inp = true.
Proof. intros H. pose proof all_entries as A. rewrite forallb_forall in A. apply A, in_upto. rewrite Z2Nat.id; lia. Qed.

Lemma entry_spec inp : 0 <= inp < 1024 ->
  let rs := naf_entry inp in
  let carry := negb (Z.land rs 4 =? 0) in
  let last := negb (Z.land rs 8 =? 0) in
  let ds := unword8 8 (Z.land rs 0x0303030303030303) in
  inp mod 512 + 2 * (inp / 512) = naf_val ds + 256 * (b2z last + 2 * b2z carry) /\
  forallb trit ds = true /\ nonadj ds = true /\
  (Z.odd inp = false -> nth 0 ds 0 = 0) /\ (nth 7 ds 0 <> 0 -> last = false) /\ last && carry = false.
Proof.
  intros H. apply entry_ok_all in H. unfold entry_ok in H. cbv zeta in H |- *.
  set (ds := unword8 8 _) in *. set (last := negb (Z.land _ 8 =? 0)) in *. set (carry := negb (Z.land _ 4 =? 0)) in *.
  rewrite !andb_true_iff in H. destruct H as [[[[[[[[H1 H2] H3] H4] H5] H6] _] _] _].
  split; [apply Z.eqb_eq, H1|]. split; [exact H2|]. split; [exact H3|].
  split. { intros E. rewrite E in H4. apply Z.eqb_eq, H4. }
  split. { intros E. apply Z.eqb_neq in E. rewrite E in H5. cbn in H5. destruct last; [discriminate|reflexivity]. }
  destruct (last && carry); [discriminate|reflexivity].
Qed.

Lemma naf_val_app l l' : naf_val (l ++ l') = naf_val l + 2 ^ Z.of_nat (length l) * naf_val l'.
Proof.
  induction l as [|d l IH]; [cbn [app naf_val length]; change (2 ^ Z.of_nat 0) with 1; lia|]. cbn [app naf_val length]. rewrite IH, Nat2Z.inj_succ, Z.pow_succ_r by lia. ring.
Qed.
Lemma nonadj_app l l' : nonadj l = true -> nonadj l' = true -> (last l 0 = 0 \/ nth 0 l' 0 = 0) -> nonadj (l ++ l') = true.
Proof.
  induction l as [|d l IH]; intros H1 H2 H3; [exact H2|].
  destruct l as [|e l].
  - cbn [app]. destruct l' as [|e l']; [reflexivity|]. cbn [nonadj] in *. cbn in H3.
    rewrite H2. destruct H3 as [->| ->]; [reflexivity|]. rewrite orb_true_r. reflexivity.
  - cbn [nonadj] in H1. apply andb_true_iff in H1 as [Ha Hb].
    change (((d =? 0) || (e =? 0)) && nonadj ((e :: l) ++ l') = true). rewrite Ha. apply IH; auto.
Qed.
Lemma unword8_length k w : length (unword8 k w) = k.
Proof. revert w; induction k; intros; cbn; auto. Qed.

(** The remaining part of the scalar at byte [i], low bit cleared (the low bit
    is in [last]). *)
Definition rest (s : list Z) (i : nat) : Z := 2 * (le_val (skipn i s) / 2).

Lemma byte_range s i : bytes_ok s -> 0 <= byte s i < 256.
Proof.
  intros H. unfold byte. destruct (Nat.lt_ge_cases i (length s)).
  - unfold bytes_ok in H. rewrite Forall_forall in H. apply H, nth_In; auto.
  - rewrite nth_overflow by auto. lia.
Qed.
Lemma skipn_byte s i : (i < length s)%nat -> skipn i s = byte s i :: skipn (i + 1) s.
Proof.
  revert i; induction s as [|b s IH]; intros i H; cbn in H; [lia|]. destruct i; [reflexivity|].
  cbn [skipn Nat.add]. rewrite IH by lia. reflexivity.
Qed.
Lemma land254 b : 0 <= b < 256 -> Z.land b 254 = 2 * (b / 2).
Proof.
  intros H.
  replace (2 * (b / 2)) with (Z.shiftl (Z.shiftr b 1) 1) by (rewrite Z.shiftl_mul_pow2, Z.shiftr_div_pow2 by lia; change (2 ^ 1) with 2; ring).
  assert (G : forallb (fun b => Z.land b 254 =? Z.shiftl (Z.shiftr b 1) 1) (upto (Z.to_nat 256)) = true) by (vm_compute; reflexivity).
  rewrite forallb_forall in G. apply Z.eqb_eq, G, in_upto. lia.
Qed.
Lemma land1 b : Z.land b 1 = b mod 2.
Proof. change 1 with (Z.ones 1). rewrite Z.land_ones by lia. reflexivity. Qed.
Lemma shl8 b : Z.shiftl b 8 = 256 * b.
Proof. rewrite Z.shiftl_mul_pow2 by lia. change (2 ^ 8) with 256. ring. Qed.

Lemma le_val_nonneg s : bytes_ok s -> 0 <= le_val s.
Proof. intros H. apply le_val_bound in H. lia. Qed.
Lemma bytes_ok_skipn i s : bytes_ok s -> bytes_ok (skipn i s).
Proof. unfold bytes_ok. intros H. rewrite <- (firstn_skipn i s) in H. apply Forall_app in H. tauto. Qed.

(** The state word for byte [i]. *)
Definition st_of (i : nat) (s : list Z) (last carry : bool) : Z :=
  let st := if last then 1 else 0 in
  let st := if (i <? length s)%nat then st + Z.land (byte s i) 254 else st in
  let st := if (i <? length s - 1)%nat then st + Z.shiftl (Z.land (byte s (i + 1)) 1) 8 else st in
  if carry then st + 512 else st.

Lemma st_of_spec i s last carry : bytes_ok s ->
  let st := st_of i s last carry in
  0 <= st < 1024 /\ Z.odd st = last /\
  st mod 512 + 2 * (st / 512) + 256 * rest s (i + 1) = b2z last + 2 * b2z carry + rest s i.
Proof.
  intros H. cbv zeta. unfold st_of. pose proof (byte_range s i H) as B0. pose proof (byte_range s (i + 1) H) as B1.
  set (hi := if (i <? length s - 1)%nat then byte s (i + 1) mod 2 else 0).
  set (lo := if (i <? length s)%nat then byte s i / 2 else 0).
  assert (Hlo : 0 <= lo < 128).
  { unfold lo. destruct (i <? length s)%nat; [|lia]. split; [apply Z.div_pos; lia|apply Z.div_lt_upper_bound; lia]. }
  assert (Hhi : 0 <= hi < 2) by (unfold hi; destruct (i <? length s - 1)%nat; [apply Z.mod_pos_bound; lia|lia]).
  assert (R : rest s i = 2 * lo + 256 * hi + 256 * rest s (i + 1)).
  { unfold rest, lo, hi. destruct (Nat.ltb_spec i (length s)) as [L|L].
    - rewrite (skipn_byte s i L). cbn [le_val].
      pose proof (le_val_nonneg _ (bytes_ok_skipn (i + 1) s H)) as V.
      destruct (Nat.ltb_spec i (length s - 1)) as [L1|L1].
      + rewrite (skipn_byte s (i + 1)) by lia. cbn [le_val].
        set (w := le_val (skipn (i + 1 + 1) s)).
        pose proof (Z.div_mod (byte s (i + 1)) 2 ltac:(lia)). 
        replace ((byte s i + 256 * (byte s (i + 1) + 256 * w)) / 2) with (byte s i / 2 + 128 * (byte s (i + 1) + 256 * w)).
        2:{ replace (byte s i + 256 * (byte s (i + 1) + 256 * w)) with (byte s i + (128 * (byte s (i + 1) + 256 * w)) * 2) by ring.
            rewrite Z.div_add by lia. reflexivity. }
        replace ((byte s (i + 1) + 256 * w) / 2) with (byte s (i + 1) / 2 + 128 * w).
        2:{ replace (byte s (i + 1) + 256 * w) with (byte s (i + 1) + (128 * w) * 2) by ring. rewrite Z.div_add by lia. reflexivity. }
        lia.
      + rewrite (skipn_all2 s) by lia. cbn [le_val]. rewrite Z.mul_0_r, Z.add_0_r. change (0 / 2) with 0. lia.
    - rewrite !(skipn_all2 s) by lia. cbn [le_val]. destruct (Nat.ltb_spec i (length s - 1)); [lia|]. reflexivity. }
  assert (E : (if (i <? length s - 1)%nat
         then (if (i <? length s)%nat then (if last then 1 else 0) + Z.land (byte s i) 254 else (if last then 1 else 0)) + Z.shiftl (Z.land (byte s (i + 1)) 1) 8
         else (if (i <? length s)%nat then (if last then 1 else 0) + Z.land (byte s i) 254 else (if last then 1 else 0)))
        = b2z last + 2 * lo + 256 * hi).
  { rewrite land254, land1, shl8 by lia. unfold lo, hi, b2z.
    destruct (i <? length s)%nat, (i <? length s - 1)%nat; lia. }
  rewrite E.
  assert (Bl : 0 <= b2z last < 2) by (destruct last; cbn; lia).
  split; [destruct carry; lia|]. split.
  { replace (if carry then b2z last + 2 * lo + 256 * hi + 512 else b2z last + 2 * lo + 256 * hi)
      with (b2z last + 2 * (lo + 128 * hi + 256 * b2z carry)) by (destruct carry; cbn [b2z]; lia).
    rewrite Z.odd_add_mul_2. destruct last; reflexivity. }
  replace (if carry then b2z last + 2 * lo + 256 * hi + 512 else b2z last + 2 * lo + 256 * hi)
    with ((b2z last + 2 * lo + 256 * hi) + b2z carry * 512) by (destruct carry; cbn [b2z]; lia).
  rewrite Z.mod_add, Z.div_add by lia. rewrite Z.mod_small, Z.div_small by lia. lia.
Qed.

Lemma buildNaf_loop_step k i s last carry :
  buildNaf_loop (S k) i s last carry =
  let rs := naf_entry (st_of i s last carry) in
  unword8 8 (Z.land rs 0x0303030303030303) ++
  buildNaf_loop k (i + 1) s (negb (Z.land rs 8 =? 0)) (negb (Z.land rs 4 =? 0)).
Proof. reflexivity. Qed.

Lemma loop_length k : forall i s last carry, length (buildNaf_loop k i s last carry) = (k * 8)%nat.
Proof. induction k; intros; [reflexivity|]. rewrite buildNaf_loop_step. cbv zeta. rewrite app_length, unword8_length, IHk. lia. Qed.

Lemma nth0_loop k i s last carry : bytes_ok s -> last = false -> nth 0 (buildNaf_loop k i s last carry) 0 = 0.
Proof.
  intros H ->. destruct k; [reflexivity|]. rewrite buildNaf_loop_step. cbv zeta. rewrite app_nth1 by (rewrite unword8_length; lia).
  destruct (st_of_spec i s false carry H) as (R & O & _). apply (entry_spec _ R). exact O.
Qed.
Lemma last_nth7 l : length l = 8%nat -> last l 0 = nth 7 l 0.
Proof. intros H. do 9 (destruct l as [|? l]; try discriminate). reflexivity. Qed.

(** State after the bytes: value left to be written. *)
Lemma loop_spec k : forall i s last carry, bytes_ok s -> last && carry = false ->
  exists last' carry', last' && carry' = false /\
  (forall j, buildNaf_loop (k + j) i s last carry = buildNaf_loop k i s last carry ++ buildNaf_loop j (i + k) s last' carry') /\
  b2z last + 2 * b2z carry + rest s i = naf_val (buildNaf_loop k i s last carry) + 256 ^ Z.of_nat k * (b2z last' + 2 * b2z carry' + rest s (i + k)) /\
  forallb trit (buildNaf_loop k i s last carry) = true /\ nonadj (buildNaf_loop k i s last carry) = true.
Proof.
  induction k as [|k IH]; intros i s last carry H LC.
  - exists last, carry. split; [exact LC|]. split; [intros j; rewrite Nat.add_0_r; reflexivity|].
    rewrite Nat.add_0_r. split; [cbn [buildNaf_loop naf_val]; change (256 ^ Z.of_nat 0) with 1; lia|]. split; reflexivity.
  - destruct (st_of_spec i s last carry H) as (R & O & V).
    destruct (entry_spec _ R) as (E1 & E2 & E3 & E4 & E5 & E6).
    set (rs := naf_entry (st_of i s last carry)) in *.
    set (ds := unword8 8 (Z.land rs 0x0303030303030303)) in *.
    destruct (IH (i + 1)%nat s _ _ H E6) as (l' & c' & LC' & HJ & HV & HT & HN).
    exists l', c'. split; [exact LC'|].
    split. { intros j. cbn [Nat.add]. rewrite !buildNaf_loop_step. cbv zeta. fold rs ds. rewrite HJ, <- app_assoc.
             replace (i + S k)%nat with (i + 1 + k)%nat by lia. reflexivity. }
    rewrite buildNaf_loop_step. cbv zeta. fold rs ds.
    split.
    { rewrite naf_val_app. unfold ds at 2. rewrite unword8_length. change (2 ^ Z.of_nat 8) with 256.
      rewrite Nat2Z.inj_succ, Z.pow_succ_r by lia. replace (i + S k)%nat with (i + 1 + k)%nat by lia.
      rewrite <- V, E1. lia. }
    split; [rewrite forallb_app, E2, HT; reflexivity|].
    apply nonadj_app; auto. unfold ds. rewrite last_nth7 by apply unword8_length. fold ds.
    destruct (Z.eq_dec (nth 7 ds 0) 0) as [|N]; [left; auto|right].
    apply nth0_loop; auto.
Qed.

Lemma rest_end s i : (length s <= i)%nat -> rest s i = 0.
Proof. intros H. unfold rest. rewrite skipn_all2 by auto. reflexivity. Qed.
Lemma st_end i s last carry : (length s <= i)%nat -> st_of i s last carry = b2z last + 512 * b2z carry.
Proof.
  intros H. unfold st_of. destruct (Nat.ltb_spec i (length s)); [lia|]. destruct (Nat.ltb_spec i (length s - 1)); [lia|].
  destruct last, carry; reflexivity.
Qed.
(** The two extra turns: at most the two lowest digits are non-zero. *)
Lemma tail_spec i s last carry : (length s <= i)%nat -> last && carry = false ->
  buildNaf_loop 2 i s last carry = [b2z last; b2z carry] ++ repeat 0 14.
Proof.
  intros H LC. rewrite buildNaf_loop_step. cbv zeta. rewrite buildNaf_loop_step. cbv zeta.
  rewrite !st_end by lia. destruct last, carry; try discriminate; vm_compute; reflexivity.
Qed.

Theorem buildNaf_spec s naf : bytes_ok s -> buildNaf s = Some naf ->
  length naf = ((length s + 2) * 8)%nat /\ forallb trit naf = true /\ nonadj naf = true /\ naf_val naf = le_val s /\
  (forall i, (length s * 8 + 2 <= i)%nat -> nth i naf 0 = 0).
Proof.
  intros H E. destruct s as [|b s0] eqn:Es; [discriminate|]. rewrite <- Es in *.
  assert (E' : naf = buildNaf_loop (length s + 2) 0 s (negb (Z.land b 1 =? 0)) false) by (rewrite Es in *; cbn [buildNaf] in E; congruence).
  clear E. set (last := negb (Z.land b 1 =? 0)) in *.
  destruct (loop_spec (length s) 0 s last false H) as (l' & c' & LC & HJ & HV & HT & HN); [apply andb_false_r|].
  split; [rewrite E'; apply loop_length|].
  destruct (loop_spec (length s + 2) 0 s last false H) as (l2 & c2 & _ & _ & HV2 & HT2 & HN2); [apply andb_false_r|].
  rewrite <- E' in *. split; [exact HT2|]. split; [exact HN2|].
  rewrite HJ in E'. rewrite Nat.add_0_l, tail_spec in E' by auto.
  assert (S0 : b2z last + rest s 0 = le_val s).
  { unfold rest, last. cbn [skipn]. rewrite land1.
    assert (b mod 2 = le_val s mod 2).
    { rewrite Es. cbn [le_val]. replace (b + 256 * le_val s0) with (b + (128 * le_val s0) * 2) by ring. rewrite Z.mod_add by lia. reflexivity. }
    rewrite H0. pose proof (Z.div_mod (le_val s) 2 ltac:(lia)). pose proof (Z.mod_pos_bound (le_val s) 2 ltac:(lia)).
    destruct (Z.eqb_spec (le_val s mod 2) 0); cbn [negb b2z]; lia. }
  split.
  - rewrite E', naf_val_app, loop_length.
    rewrite naf_val_app. replace (naf_val (repeat 0 14)) with 0 by reflexivity.
    replace (2 ^ Z.of_nat (length s * 8)) with (256 ^ Z.of_nat (length s)).
    2:{ rewrite Nat2Z.inj_mul, Z.mul_comm, Z.pow_mul_r by lia. reflexivity. }
    replace (naf_val [b2z l'; b2z c']) with (b2z l' + 2 * b2z c') by (destruct l', c'; reflexivity).
    rewrite Z.mul_0_r, Z.add_0_r. rewrite Nat.add_0_l, (rest_end s (length s)) in HV by lia. cbn [b2z] in HV. lia.
  - intros i Hi. rewrite E', app_assoc, app_nth2 by (rewrite app_length, loop_length; cbn [length]; lia).
    destruct (nth_in_or_default (i - length (buildNaf_loop (length s) 0 s last false ++ [b2z l'; b2z c'])) (repeat 0 14) 0) as [I|D]; [|exact D].
    apply repeat_spec in I. exact I.
Qed.
Lemma buildNaf_some s : s <> [] -> exists naf, buildNaf s = Some naf.
Proof. destruct s; [congruence|]. eexists. reflexivity. Qed.

(** ** Multiplication *)
Section Mul.
Variable A : abgroup.
Variable E : Type.
Variables (zero : E) (dbl : E -> E) (add sub : E -> E -> E).
(** [rep e x]: the accumulator object e represents x; [repB]: same for the base object *)
Variables (rep repB : E -> A -> Prop).
Hypothesis zero_ok : rep zero gzero.
Hypothesis dbl_ok : forall e x, rep e x -> rep (dbl e) (gadd x x).
Hypothesis add_ok : forall e x b y, rep e x -> repB b y -> rep (add e b) (gadd x y).
Hypothesis sub_ok : forall e x b y, rep e x -> repB b y -> rep (sub e b) (gadd x (gneg y)).

Lemma naf_val_firstn_step naf i : (i < length naf)%nat ->
  naf_val (skipn i naf) = naf_digit (nth i naf 0) + 2 * naf_val (skipn (S i) naf).
Proof.
  revert i; induction naf as [|d l IH]; intros i H; cbn in H; [lia|]. destruct i; [reflexivity|].
  cbn [skipn nth]. apply IH. lia.
Qed.
Lemma gset_same (m : gmem E) r e : gset m r e r = e.
Proof. unfold gset. rewrite Nat.eqb_refl. reflexivity. Qed.
Lemma gset_other (m : gmem E) r e p : p <> r -> gset m r e p = m p.
Proof. intros H. unfold gset. destruct (Nat.eqb_spec p r); [contradiction|reflexivity]. Qed.

Lemma naf_run_spec naf base y r : repB base y -> forallb trit naf = true -> forall k m, (k <= length naf)%nat ->
  rep (m r) (zmul (naf_val (skipn k naf)) y) ->
  rep (naf_run dbl add sub naf k r base m r) (zmul (naf_val naf) y) /\
  forall p, p <> r -> naf_run dbl add sub naf k r base m p = m p.
Proof.
  intros HB HT. induction k as [|i IH]; intros m Hk Hm; [split; auto|].
  cbn [naf_run]. 
  set (m1 := gset m r (dbl (m r))).
  set (m2 := if nth i naf 0 =? 1 then _ else _).
  assert (H1 : rep (m1 r) (zmul (2 * naf_val (skipn (S i) naf)) y)).
  { unfold m1. rewrite gset_same, zmul_double. apply dbl_ok, Hm. }
  assert (H2 : rep (m2 r) (zmul (naf_val (skipn i naf)) y)).
  { rewrite naf_val_firstn_step by lia. rewrite Z.add_comm.
    assert (T : trit (nth i naf 0) = true).
    { rewrite forallb_forall in HT. apply HT, nth_In. lia. }
    unfold m2. unfold naf_digit. destruct (Z.eqb_spec (nth i naf 0) 1) as [E1|E1].
    - rewrite gset_same. rewrite E1. cbn [Z.eqb Pos.eqb]. rewrite zmul_add, zmul_1. apply add_ok; auto.
    - destruct (Z.eqb_spec (nth i naf 0) 2) as [E2|E2].
      + rewrite gset_same. change (-1) with (- (1)). rewrite zmul_add, zmul_neg, zmul_1. apply sub_ok; auto.
      + assert (E0 : nth i naf 0 = 0). { unfold trit in T. destruct (Z.eqb_spec (nth i naf 0) 0); [auto|]. apply Z.eqb_neq in E1, E2. rewrite E1, E2 in T. discriminate. }
        rewrite E0, Z.add_0_r. exact H1. }
  destruct (IH m2 ltac:(lia) H2) as [R F]. split; [exact R|].
  intros p Hp. rewrite F by auto. unfold m2. destruct (nth i naf 0 =? 1); [|destruct (nth i naf 0 =? 2)];
    rewrite ?gset_other by auto; unfold m1; rewrite ?gset_other by auto; reflexivity.
Qed.
Lemma skip_zeros_spec naf k : (forall i, (k <= i)%nat -> nth i naf 0 = 0) ->
  forall i, (skip_zeros naf k <= i)%nat -> nth i naf 0 = 0.
Proof.
  induction k as [|k IH]; intros H; [exact H|]. cbn [skip_zeros].
  destruct (Z.eqb_spec (nth k naf 0) 0) as [E0|]; [|exact H]. apply IH.
  intros i Hi. destruct (Nat.eq_dec i k) as [->|]; [exact E0|]. apply H. lia.
Qed.
Lemma skip_zeros_le naf k : (skip_zeros naf k <= k)%nat.
Proof. induction k as [|k IH]; cbn [skip_zeros]; [lia|]. destruct (nth k naf 0 =? 0); lia. Qed.
Lemma naf_val_zeros l : (forall i, nth i l 0 = 0) -> naf_val l = 0.
Proof.
  induction l as [|d l IH]; intros H; [reflexivity|]. cbn [naf_val]. rewrite IH by (intros i; exact (H (S i))).
  pose proof (H 0%nat) as H0. cbn in H0. rewrite H0. reflexivity.
Qed.
Lemma nth_skipn (l : list Z) k i : nth i (skipn k l) 0 = nth (k + i) l 0.
Proof. revert l; induction k; intros l; [reflexivity|]. destruct l; [destruct i; reflexivity|]. cbn. apply IHk. Qed.

Theorem nafMul_spec r base s m y : bytes_ok s -> s <> [] -> Z.of_nat (length s) < 2 ^ 28 -> repB (m base) y ->
  exists m', nafMul zero dbl add sub r base s m = Some m' /\ rep (m' r) (zmul (le_val s) y) /\ forall p, p <> r -> m' p = m p.
Proof.
  intros H N L HB. unfold nafMul. destruct (Z.leb_spec (2 ^ 32) ((Z.of_nat (length s) + 2) * 8)); [lia|].
  destruct (buildNaf_some s N) as [naf En]. rewrite En.
  destruct (buildNaf_spec s naf H En) as (Hl & HT & _ & HV & HZ).
  assert (Eb : Z.to_nat (nbits (Z.of_nat (length s))) = (length s * 8 + 2)%nat).
  { unfold nbits. rewrite Z.mod_small by lia. destruct (Z.ltb_spec (Z.of_nat (length s) * 8 + 2) (2 ^ 31)); lia. }
  rewrite Eb. set (k := skip_zeros naf (length s * 8 + 2)).
  assert (Kz : forall i, (k <= i)%nat -> nth i naf 0 = 0) by (apply skip_zeros_spec; exact HZ).
  assert (Kl : (k <= length naf)%nat) by (pose proof (skip_zeros_le naf (length s * 8 + 2)); unfold k; lia).
  eexists. split; [reflexivity|]. rewrite <- HV.
  destruct (naf_run_spec naf (m base) y r HB HT k (gset m r zero) Kl) as [R F].
  { rewrite gset_same, naf_val_zeros, zmul_0; [exact zero_ok|]. intros i. rewrite nth_skipn. apply Kz. lia. }
  split; [exact R|]. intros p Hp. rewrite F, gset_other by auto. reflexivity.
Qed.
(** From 2^28 bytes on nBits is negative: the result is always zero. *)
Theorem nafMul_long r base s m : s <> [] -> 2 ^ 28 <= Z.of_nat (length s) < 2 ^ 29 - 2 ->
  nafMul zero dbl add sub r base s m = Some (gset m r zero).
Proof.
  intros N L. unfold nafMul. destruct (Z.leb_spec (2 ^ 32) ((Z.of_nat (length s) + 2) * 8)); [lia|].
  destruct (buildNaf_some s N) as [naf En]. rewrite En.
  replace (Z.to_nat (nbits (Z.of_nat (length s)))) with 0%nat; [reflexivity|].
  unfold nbits. rewrite Z.mod_small by lia. destruct (Z.ltb_spec (Z.of_nat (length s) * 8 + 2) (2 ^ 31)); lia.
Qed.
End Mul.

(** ** log2 *)
Lemma smear_step v k L : 0 <= v -> 0 < k -> 0 <= L ->
  (forall i, L < i -> Z.testbit v i = false) -> (forall i, 0 <= i -> L - k < i <= L -> Z.testbit v i = true) ->
  let w := Z.lor v (Z.shiftr v k) in
  0 <= w /\ (forall i, L < i -> Z.testbit w i = false) /\ (forall i, 0 <= i -> L - 2 * k < i <= L -> Z.testbit w i = true).
Proof.
  intros Hv Hk HL H1 H2. cbv zeta. split; [apply Z.lor_nonneg; split; [auto|apply Z.shiftr_nonneg; auto]|].
  split; intros i Hi; [|intros Hr]; rewrite Z.lor_spec, Z.shiftr_spec by lia.
  - rewrite H1, H1 by lia. reflexivity.
  - destruct (Z_lt_le_dec (L - k) i) as [G|G]; [rewrite H2 by lia; reflexivity|].
    rewrite (H2 (i + k)) by lia. apply orb_true_r.
Qed.
Theorem log2_spec x : 0 < x < 2 ^ 32 -> log2_u32 x = Z.log2 x.
Proof.
  intros Hx. set (L := Z.log2 x).
  assert (HL : 0 <= L < 32). { split; [apply Z.log2_nonneg|apply Z.log2_lt_pow2; lia]. }
  assert (T0 : forall i, L < i -> Z.testbit x i = false) by (intros i Hi; apply Z.bits_above_log2; unfold L in Hi; lia).
  assert (T1 : forall i, 0 <= i -> L - 1 < i <= L -> Z.testbit x i = true).
  { intros i _ Hi. replace i with L by lia. apply Z.bit_log2. lia. }
  unfold log2_u32. 
  destruct (smear_step x 1 L) as (A1 & B1 & C1); auto; try lia. set (v1 := Z.lor x _) in *.
  destruct (smear_step v1 2 L) as (A2 & B2 & C2); auto; try lia. set (v2 := Z.lor v1 _) in *.
  destruct (smear_step v2 4 L) as (A3 & B3 & C3); auto; try lia. set (v3 := Z.lor v2 _) in *.
  destruct (smear_step v3 8 L) as (A4 & B4 & C4); auto; try lia. set (v4 := Z.lor v3 _) in *.
  destruct (smear_step v4 16 L) as (A5 & B5 & C5); auto; try lia. set (v5 := Z.lor v4 _) in *.
  assert (E : v5 = Z.ones (L + 1)).
  { apply Z.bits_inj'. intros i Hi. rewrite Z.testbit_ones by lia.
    destruct (Z_lt_le_dec L i) as [G|G].
    - rewrite B5 by lia. symmetry. apply andb_false_iff. right. apply Z.ltb_ge. lia.
    - rewrite C5 by lia. symmetry. apply andb_true_iff. split; [apply Z.leb_le; lia|apply Z.ltb_lt; lia]. }
  rewrite E.
  assert (G : forallb (fun k => nth (Z.to_nat (Z.shiftr ((Z.ones (k + 1) * 0x07C4ACDD) mod 2 ^ 32) 27)) tab32 0 =? k) (upto 32) = true) by (vm_compute; reflexivity).
  rewrite forallb_forall in G. apply Z.eqb_eq, G, in_upto. lia.
Qed.
