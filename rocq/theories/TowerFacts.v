(** The operations of the tower compute the specification rings, whatever the
    aliasing. *)
From Coq Require Import ZArith List Bool Ring Lia.
From Verif Require Import Bytes BytesFacts Tower TowerAlg.
Import ListNotations.

Lemma objeqb_spec o o' : reflect (o = o') (objeqb o o').
Proof.
  destruct o as [n|n|n|n], o' as [k|k|k|k]; cbn; try (constructor; discriminate);
    destruct (Nat.eqb_spec n k); constructor; congruence.
Qed.
Lemma leqb_spec l : forall l', reflect (l = l') (leqb l l').
Proof.
  induction l as [o|c l IH]; intros [o'|c' l']; cbn; try (constructor; discriminate).
  - destruct (objeqb_spec o o'); constructor; congruence.
  - destruct (Nat.eqb_spec c c'), (IH l'); constructor; congruence.
Qed.
Lemma leqb_refl l : leqb l l = true.
Proof. destruct (leqb_spec l l); congruence. Qed.
Lemma leqb_neq l l' : l <> l' -> leqb l l' = false.
Proof. intros H. destruct (leqb_spec l l'); congruence. Qed.

Fixpoint root (l : loc) : obj := match l with R o => o | C _ l => root l end.
(** l is a part of the object r *)
Fixpoint inside (r l : loc) : bool := leqb l r || match l with R _ => false | C _ l => inside r l end.
Lemma inside_C i r l : inside (C i r) l = true -> inside r l = true.
Proof.
  induction l as [o|j l IH]; cbn; [discriminate|]. rewrite orb_true_iff. intros [H|H].
  - apply andb_true_iff in H as [_ H]. destruct (leqb_spec l r); [subst l|discriminate]. destruct r; cbn; rewrite ?leqb_refl; cbn; rewrite ?orb_true_r; try reflexivity.
    destruct (objeqb_spec o o); [reflexivity|congruence].
    rewrite Nat.eqb_refl. cbn. rewrite orb_true_r. reflexivity.
  - rewrite IH by auto. apply orb_true_r.
Qed.
Lemma inside_out i r l : inside r l = false -> inside (C i r) l = false.
Proof. intros H. destruct (inside (C i r) l) eqn:E; [|reflexivity]. apply inside_C in E. congruence. Qed.
Lemma inside_root l : forall o, inside (R o) l = objeqb (root l) o.
Proof. induction l as [o'|i l IH]; intros o; cbn; [apply orb_false_r|]. apply IH. Qed.
Lemma inside_refl r : inside r r = true.
Proof. destruct r; cbn [inside]; rewrite leqb_refl; reflexivity. Qed.
Lemma inside_neq i r c : inside r c = false -> c <> C i r.
Proof. intros H ->. cbn in H. rewrite inside_refl, orb_true_r in H. discriminate. Qed.
(** storage of the locals of F2Field / F6Field / F12Field functions *)
Definition loc1 (l : loc) : bool := match root l with T1 _ => true | _ => false end.
Definition loc2 (l : loc) : bool := match root l with T1 _ | T2 _ => true | _ => false end.
Definition loc3 (l : loc) : bool := match root l with T1 _ | T2 _ | T3 _ => true | _ => false end.

Ltac cases := repeat match goal with |- context [leqb ?x ?y] => destruct (leqb_spec x y); [try subst x; try subst y|]; rewrite ?leqb_refl; try congruence end.
Ltac dec := cbn [leqb Nat.eqb objeqb andb].

Section L2.
Variable K : rng.
Add Ring KringA : (r_th K).
Notation "0" := (@r0 K). Notation "1" := (@r1 K).
Infix "+" := (@radd K). Infix "*" := (@rmul K). Infix "-" := (@rsub K). Notation "- x" := (@ropp K x).
Notation mem := (mem K).
Variable nr : K.

(** value of an F2 element *)
Definition val2 (m : mem) (p : loc) : K * K := (m (C 0 p), m (C 1 p)).

Lemma mulByNr_eq r a (m : mem) p : mulByNr K nr r a m p = if leqb p r then nr * m a else m p.
Proof.
  unfold mulByNr, nr_type. destruct (reqb nr 0) eqn:E0; [apply reqb_ok in E0; rewrite E0; unfold F_zero, upd; destruct (leqb p r); [ring|reflexivity]|].
  destruct (reqb nr 1) eqn:E1; [apply reqb_ok in E1; rewrite E1; unfold F_copy, upd; destruct (leqb p r); [ring|reflexivity]|].
  destruct (reqb nr (- (1))) eqn:E2; [apply reqb_ok in E2; rewrite E2; unfold F_neg, upd; destruct (leqb p r); [ring|reflexivity]|].
  reflexivity.
Qed.

Ltac ops := unfold val2, F_add, F_sub, F_mul, F_neg, F_copy, F_square, F_inv, F_zero, upd; rewrite ?mulByNr_eq; dec.
Ltac fin := cases; cbn [fst snd]; try (apply pair_eq); try reflexivity; try ring.

Lemma add2_eq r a b (m : mem) p : val2 (F2_add K r a b m) p = if leqb p r then q_add K (val2 m a) (val2 m b) else val2 m p.
Proof. unfold F2_add, q_add. ops. fin. Qed.
Lemma sub2_eq r a b (m : mem) p : val2 (F2_sub K r a b m) p = if leqb p r then q_sub K (val2 m a) (val2 m b) else val2 m p.
Proof. unfold F2_sub, q_sub. ops. fin. Qed.
Lemma neg2_eq r a (m : mem) p : val2 (F2_neg K r a m) p = if leqb p r then q_opp K (val2 m a) else val2 m p.
Proof. unfold F2_neg, q_opp. ops. fin. Qed.
Definition q_conj (x : K * K) : K * K := (fst x, - snd x).
Lemma conj2_eq r a (m : mem) p : val2 (F2_conjugate K r a m) p = if leqb p r then q_conj (val2 m a) else val2 m p.
Proof. unfold F2_conjugate, q_conj. ops. fin. Qed.
Lemma copy2_eq r a (m : mem) p : val2 (F2_copy K r a m) p = if leqb p r then val2 m a else val2 m p.
Proof. unfold F2_copy. ops. fin. Qed.
Lemma dbl2_eq r a (m : mem) p : val2 (F2_dbl K r a m) p = if leqb p r then q_add K (val2 m a) (val2 m a) else val2 m p.
Proof. unfold F2_dbl, q_add. ops. fin. Qed.
Lemma mul2_eq r a b (m : mem) p : val2 (F2_mul K nr r a b m) p = if leqb p r then q_mul K nr (val2 m a) (val2 m b) else val2 m p.
Proof. unfold F2_mul, q_mul. unfold val2, F_add, F_sub, F_mul, upd. dec. rewrite !mulByNr_eq. dec. fin. Qed.
Lemma inv2_eq r a (m : mem) p : val2 (F2_inv K nr r a m) p = if leqb p r then q_inv K nr (val2 m a) else val2 m p.
Proof.
  unfold F2_inv, q_inv, q_norm. unfold val2, F_neg, F_mul, F_inv, F_sub, F_square, upd. dec. rewrite !mulByNr_eq. dec.
  cases; cbn [fst snd]; try (apply pair_eq); try reflexivity; ring.
Qed.
Lemma div2_eq r a b (m : mem) p : p <> R (T1 8) -> a <> R (T1 8) -> val2 (F2_div K nr r a b m) p =
  if leqb p r then q_mul K nr (val2 m a) (q_inv K nr (val2 m b)) else val2 m p.
Proof.
  intros Hp Ha. unfold F2_div. rewrite mul2_eq, !inv2_eq. dec. rewrite (leqb_neq p _ Hp), (leqb_neq a _ Ha). reflexivity.
Qed.
Definition q_scale (x : K * K) (k : K) : K * K := (fst x * k, snd x * k).
(** b may not be the first component of the destination *)
Lemma scale2_eq r a b (m : mem) p : b <> C 0 r -> val2 (F2_mulScalar K r a b m) p = if leqb p r then q_scale (val2 m a) (m b) else val2 m p.
Proof. intros Hb. unfold F2_mulScalar, q_scale. ops. rewrite (leqb_neq b _ Hb). fin. Qed.
(** multiplication by 9 + u, when u^2 = -1 *)
Lemma mulXi_eq r a (m : mem) p : p <> R (T1 9) -> a <> R (T1 9) ->
  val2 (F2_mulXi K r a m) p = if leqb p r then q_mul K (neg1 K) (xi K) (val2 m a) else val2 m p.
Proof.
  intros Hp Ha. set (t := R (T1 9)) in *. unfold F2_mulXi. cbv zeta. fold t. rewrite copy2_eq.
  set (M := F2_add K t t a (F2_dbl K t t (F2_dbl K t t (F2_dbl K t a m)))).
  assert (Hx : forall x, x <> t -> val2 M x = val2 m x).
  { intros x Hx. unfold M. rewrite add2_eq, !dbl2_eq, !(leqb_neq x t Hx). reflexivity. }
  assert (Ht : val2 M t = let v := val2 m a in let w := q_add K v v in let w := q_add K w w in q_add K (q_add K w w) v).
  { unfold M. rewrite add2_eq, !dbl2_eq, !(leqb_neq a t Ha), !leqb_refl. reflexivity. }
  specialize (Hx a Ha) as Hxa. specialize (Hx p Hp) as Hxp. clearbody M.
  unfold val2 in *. revert Hxa Hxp Ht. unfold q_add. cbn [fst snd]. intros Hxa Hxp Ht.
  injection Hxa as A0 A1. injection Hxp as P0 P1. injection Ht as T0 T1.
  unfold F_sub, F_add, upd. cbn [leqb Nat.eqb andb]. rewrite !leqb_refl, !(leqb_neq a t Ha), !(leqb_neq p t Hp).
  destruct (leqb p r); [|rewrite P0, P1; reflexivity].
  unfold q_mul, xi, nine, neg1. cbn [fst snd]. rewrite A0, A1, T0, T1. apply pair_eq; ring.
Qed.
(** squaring is right for nr = -1 ... *)
Lemma square2_eq r a (m : mem) p : nr = - (1) -> nr_type K nr = nr_is_negone ->
  val2 (F2_square K nr r a m) p = if leqb p r then q_mul K nr (val2 m a) (val2 m a) else val2 m p.
Proof. intros En Et. unfold F2_square, q_mul. rewrite Et, En. ops. fin. Qed.
(** ... and for any other nr gives a wrong first component *)
Lemma square2_long r a (m : mem) : nr_type K nr <> nr_is_negone ->
  let v := val2 m a in val2 (F2_square K nr r a m) r =
  ((fst v + snd v) * (fst v + (fst v + snd v)) - (fst v * snd v + nr * (fst v * snd v)), fst v * snd v + fst v * snd v).
Proof.
  intros Et. cbv zeta. unfold F2_square. destruct (nr_type K nr); [| |congruence|];
    (unfold val2, F_add, F_sub, F_mul, upd; dec; rewrite ?leqb_refl, ?mulByNr_eq; dec; rewrite ?leqb_refl; cases; cbn [fst snd]; apply pair_eq; ring).
Qed.
Lemma eq2_ok a b (m : mem) : F2_eq K a b m = true <-> val2 m a = val2 m b.
Proof. exact (q_eqb_ok K (val2 m a) (val2 m b)). Qed.
Lemma isZero2_ok a (m : mem) : F2_isZero K a m = true <-> val2 m a = (0, 0).
Proof. exact (q_eqb_ok K (val2 m a) (0, 0)). Qed.
Lemma isOne2_ok a (m : mem) : F2_isOne K a m = true <-> val2 m a = (1, 0).
Proof. exact (q_eqb_ok K (val2 m a) (1, 0)). Qed.

(** frame: cells *)
Definition frame2 (r : loc) (m m' : mem) : Prop := forall c, inside r c = false -> loc1 c = false -> m' c = m c.
Lemma upd_frame (m : mem) x v c : c <> x -> upd K m x v c = m c.
Proof. intros H. unfold upd. rewrite (leqb_neq c x H). reflexivity. Qed.
Lemma nr_frame (m : mem) r a c : c <> r -> mulByNr K nr r a m c = m c.
Proof. intros H. rewrite mulByNr_eq, (leqb_neq c r H). reflexivity. Qed.
Ltac ne := first [assumption | apply inside_neq; assumption | (let E := fresh in intros E; match goal with H : loc1 ?c = false |- _ => subst c; cbv in H; discriminate end)].
Ltac frm := intros c H0 H2; unfold F2_mul, F2_inv, F2_square, F2_mulXi, F2_dbl, F2_add, F2_sub, F2_neg, F2_conjugate, F2_copy, F2_mulScalar;
  unfold F_add, F_sub, F_mul, F_neg, F_copy, F_square, F_inv; cbv zeta;
  repeat first [rewrite upd_frame by ne | rewrite nr_frame by ne]; reflexivity.
Lemma add2_frame r a b m : frame2 r m (F2_add K r a b m). Proof. frm. Qed.
Lemma sub2_frame r a b m : frame2 r m (F2_sub K r a b m). Proof. frm. Qed.
Lemma neg2_frame r a m : frame2 r m (F2_neg K r a m). Proof. frm. Qed.
Lemma conj2_frame r a m : frame2 r m (F2_conjugate K r a m). Proof. frm. Qed.
Lemma copy2_frame r a m : frame2 r m (F2_copy K r a m). Proof. frm. Qed.
Lemma dbl2_frame r a m : frame2 r m (F2_dbl K r a m). Proof. frm. Qed.
Lemma scale2_frame r a b m : frame2 r m (F2_mulScalar K r a b m). Proof. frm. Qed.
Lemma mul2_frame r a b m : frame2 r m (F2_mul K nr r a b m). Proof. frm. Qed.
Lemma inv2_frame r a m : frame2 r m (F2_inv K nr r a m). Proof. frm. Qed.
Lemma mulXi_frame r a m : frame2 r m (F2_mulXi K r a m).
Proof.
  intros c H0 H2. unfold F2_mulXi. cbv zeta. rewrite copy2_frame by assumption.
  unfold F_sub at 1. rewrite upd_frame by ne. unfold F_add at 1. rewrite upd_frame by ne.
  assert (H3 : inside (R (T1 9)) c = false).
  { rewrite inside_root. unfold loc1 in H2. destruct (root c); try reflexivity; discriminate. }
  rewrite add2_frame, !dbl2_frame by assumption. reflexivity.
Qed.
Lemma square2_frame r a m : frame2 r m (F2_square K nr r a m).
Proof. unfold F2_square. destruct (nr_type K nr); frm. Qed.
Lemma div2_frame r a b m : frame2 r m (F2_div K nr r a b m).
Proof.
  intros c H0 H2. unfold F2_div. rewrite (mul2_frame r a (R (T1 8)) _ c H0 H2).
  apply inv2_frame; auto. rewrite inside_root. unfold loc1 in H2. destruct (root c); try reflexivity; discriminate.
Qed.
End L2.
Arguments val2 {K}. Arguments q_conj {K}. Arguments q_scale {K}. Arguments frame2 {K}.

(** ** F6 *)
Section L6.
Variable K : rng.
Add Ring KringB : (r_th K).
Add Ring E2ring : (r_th (E2 K)).
Notation mem := (mem K).
Hypothesis Hnr : nr_type K (neg1 K) = nr_is_negone.

(** value of an F2 element over nr = -1 *)
Definition v2 (m : mem) (p : loc) : E2 K := val2 m p.
(** value of an F6 element *)
Definition val6 (m : mem) (p : loc) : E6 K := (v2 m (C 0 p), v2 m (C 1 p), v2 m (C 2 p)).
Definition xi6 : E2 K := xi K.

Notation "x + y" := (@radd (E2 K) x y). Notation "x * y" := (@rmul (E2 K) x y).
Notation "x - y" := (@rsub (E2 K) x y). Notation "- x" := (@ropp (E2 K) x).
Lemma add2 r a b (m : mem) p : v2 (F2_add K r a b m) p = if leqb p r then v2 m a + v2 m b else v2 m p. Proof. apply add2_eq. Qed.
Lemma sub2 r a b (m : mem) p : v2 (F2_sub K r a b m) p = if leqb p r then v2 m a - v2 m b else v2 m p. Proof. apply sub2_eq. Qed.
Lemma neg2 r a (m : mem) p : v2 (F2_neg K r a m) p = if leqb p r then - v2 m a else v2 m p. Proof. apply neg2_eq. Qed.
Lemma dbl2 r a (m : mem) p : v2 (F2_dbl K r a m) p = if leqb p r then v2 m a + v2 m a else v2 m p. Proof. apply dbl2_eq. Qed.
Lemma mul2 r a b (m : mem) p : v2 (F2_mul K (neg1 K) r a b m) p = if leqb p r then v2 m a * v2 m b else v2 m p. Proof. apply mul2_eq. Qed.
Lemma inv2 r a (m : mem) p : v2 (F2_inv K (neg1 K) r a m) p = if leqb p r then @rinv (E2 K) (v2 m a) else v2 m p. Proof. apply inv2_eq. Qed.
Lemma cpy2 r a (m : mem) p : v2 (F2_copy K r a m) p = if leqb p r then v2 m a else v2 m p. Proof. apply copy2_eq. Qed.
Lemma sq2 r a (m : mem) p : v2 (F2_square K (neg1 K) r a m) p = if leqb p r then v2 m a * v2 m a else v2 m p.
Proof. apply square2_eq; auto. Qed.
Definition notT19 (p : loc) := match p with R (T1 9) => false | _ => true end.
Lemma xi2 r a (m : mem) p : notT19 p = true -> notT19 a = true -> v2 (F2_mulXi K r a m) p = if leqb p r then xi6 * v2 m a else v2 m p.
Proof. intros Hp Ha. apply mulXi_eq; intros E; subst; discriminate. Qed.

Ltac st := repeat (first [rewrite add2 | rewrite sub2 | rewrite neg2 | rewrite dbl2 | rewrite mul2 | rewrite inv2 | rewrite sq2
   | rewrite cpy2 | rewrite xi2 by reflexivity]; dec).
Ltac fin6 := cases; unfold cx, cy, cz; cbn [fst snd]; try (apply pair_eq; [apply pair_eq|]); try reflexivity;
  try (match goal with |- @eq _ ?a ?b => change (@eq (rcar (E2 K)) a b); ring end).

Lemma add6_eq r a b (m : mem) p : val6 (F6_add K r a b m) p = if leqb p r then @radd (E6 K) (val6 m a) (val6 m b) else val6 m p.
Proof. cbn. unfold F6_add, val6, c_add. st. fin6. Qed.
Lemma sub6_eq r a b (m : mem) p : val6 (F6_sub K r a b m) p = if leqb p r then @rsub (E6 K) (val6 m a) (val6 m b) else val6 m p.
Proof. cbn. unfold F6_sub, val6, c_sub. st. fin6. Qed.
Lemma neg6_eq r a (m : mem) p : val6 (F6_neg K r a m) p = if leqb p r then @ropp (E6 K) (val6 m a) else val6 m p.
Proof. cbn. unfold F6_neg, val6, c_opp. st. fin6. Qed.
Lemma copy6_eq r a (m : mem) p : val6 (F6_copy K r a m) p = if leqb p r then val6 m a else val6 m p.
Proof. unfold F6_copy, val6. st. fin6. Qed.
Lemma dbl6_eq r a (m : mem) p : val6 (F6_dbl K r a m) p = if leqb p r then @radd (E6 K) (val6 m a) (val6 m a) else val6 m p.
Proof. cbn. unfold F6_dbl, val6, c_add. st. fin6. Qed.
Lemma mul6_eq r a b (m : mem) p : val6 (F6_mul K r a b m) p = if leqb p r then @rmul (E6 K) (val6 m a) (val6 m b) else val6 m p.
Proof. change (@rmul (E6 K)) with (c_mul (E2 K) xi6). unfold F6_mul, val6, c_mul. st. fin6. Qed.
Lemma square6_eq r a (m : mem) p : val6 (F6_square K r a m) p = if leqb p r then @rmul (E6 K) (val6 m a) (val6 m a) else val6 m p.
Proof. change (@rmul (E6 K)) with (c_mul (E2 K) xi6). unfold F6_square, val6, c_mul. st. fin6. Qed.
Lemma mulTau_eq r a (m : mem) p : val6 (F6_mulTau K r a m) p = if leqb p r then @rmul (E6 K) (c_t (E2 K) xi6) (val6 m a) else val6 m p.
Proof. change (@rmul (E6 K)) with (c_mul (E2 K) xi6). unfold F6_mulTau, val6, c_mul, c_t. st. fin6. Qed.
Lemma inv6_eq r a (m : mem) p : val6 (F6_inv K r a m) p = if leqb p r then @rinv (E6 K) (val6 m a) else val6 m p.
Proof.
  change (@rinv (E6 K)) with (c_inv (E2 K) xi6). unfold F6_inv, val6, c_inv, c_A, c_B, c_C. cbv zeta. st.
  destruct (leqb_spec p r) as [->|Np]; rewrite ?leqb_refl; [|reflexivity].
  unfold cx, cy, cz. cbn [fst snd].
  match goal with |- context [@rinv _ ?n] => replace n with (c_norm (E2 K) xi6 (v2 m (C 0 a), v2 m (C 1 a), v2 m (C 2 a)))
    by (unfold c_norm, cx, cy, cz; cbn [fst snd]; ring) end.
  set (d := @rinv (E2 K) _). clearbody d. apply pair_eq; [apply pair_eq|]; ring.
Qed.
(** scalar multiplications; the scalar may not be one of the components that are
    written before its last use *)
Definition c_scale (x : E6 K) (k : E2 K) : E6 K := @rmul (E6 K) x (@r0 (E2 K), @r0 (E2 K), k).
Lemma mulScalar6_eq r a b (m : mem) p : b <> C 0 r -> b <> C 1 r ->
  val6 (F6_mulScalar K r a b m) p = if leqb p r then c_scale (val6 m a) (v2 m b) else val6 m p.
Proof.
  intros N0 N1. unfold c_scale. change (@rmul (E6 K)) with (c_mul (E2 K) xi6). unfold F6_mulScalar, val6, c_mul. st.
  rewrite !(leqb_neq _ _ N0), !(leqb_neq _ _ N1). fin6.
Qed.
Definition k2 (k : K) : E2 K := (k, r0).
Lemma scale2 r a b (m : mem) p : b <> C 0 r -> v2 (F2_mulScalar K r a b m) p = if leqb p r then v2 m a * k2 (m b) else v2 m p.
Proof.
  intros Hb. unfold v2. rewrite scale2_eq by auto. destruct (leqb p r); [|reflexivity]. cbn. unfold q_scale, q_mul, k2, neg1. cbn [fst snd].
  apply pair_eq; ring.
Qed.
Lemma mulGFP_eq r a b (m : mem) p : inside r b = false -> loc1 b = false ->
  val6 (F6_mulGFP K r a b m) p = if leqb p r then c_scale (val6 m a) (k2 (m b)) else val6 m p.
Proof.
  intros N L.
  assert (NN : forall i j, b <> C i (C j r)) by (intros i j; apply inside_neq, inside_out, N).
  unfold c_scale. change (@rmul (E6 K)) with (c_mul (E2 K) xi6). unfold F6_mulGFP, val6, c_mul.
  set (m1 := F2_mulScalar K (C 0 r) (C 0 a) b m). set (m2 := F2_mulScalar K (C 1 r) (C 1 a) b m1).
  assert (E1 : m1 b = m b) by (apply scale2_frame; [apply inside_out|]; auto). assert (X2 : m2 b = m b) by (rewrite <- E1; apply scale2_frame; [apply inside_out|]; auto).
  repeat (rewrite scale2 by auto; dec). rewrite X2. unfold m2. repeat (rewrite scale2 by auto; dec). rewrite E1.
  unfold m1. repeat (rewrite scale2 by auto; dec). fin6.
Qed.
Lemma div6_eq r a b (m : mem) p : p <> R (T2 8) -> a <> R (T2 8) ->
  val6 (F6_div K r a b m) p = if leqb p r then @rmul (E6 K) (val6 m a) (@rinv (E6 K) (val6 m b)) else val6 m p.
Proof.
  intros Hp Ha. unfold F6_div. rewrite mul6_eq, !inv6_eq, leqb_refl, (leqb_neq p _ Hp), (leqb_neq a _ Ha). reflexivity.
Qed.
Lemma eq6_ok a b (m : mem) : F6_eq K a b m = true <-> val6 m a = val6 m b.
Proof. exact (c_eqb_ok (E2 K) (val6 m a) (val6 m b)). Qed.
Lemma isZero6_ok a (m : mem) : F6_isZero K a m = true <-> val6 m a = @r0 (E6 K).
Proof. exact (c_eqb_ok (E2 K) (val6 m a) (@r0 (E6 K))). Qed.
Lemma isOne6_ok a (m : mem) : F6_isOne K a m = true <-> val6 m a = @r1 (E6 K).
Proof. exact (c_eqb_ok (E2 K) (val6 m a) (@r1 (E6 K))). Qed.
End L6.
Arguments v2 {K}. Arguments val6 {K}.
