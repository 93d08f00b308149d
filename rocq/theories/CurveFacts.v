(** The point operations as functions of the values of their operands. *)
From Coq Require Import List Bool Ring.
From Verif Require Import Tower TowerAlg TowerFacts Curve.
Import ListNotations.

Section CF.
Variable K : rng.
Variables fa fb : K.
Add Ring KringC : (r_th K).
Notation "0" := (@r0 K). Notation "1" := (@r1 K).
Infix "+" := (@radd K). Infix "*" := (@rmul K). Infix "-" := (@rsub K). Notation "- x" := (@ropp K x).
Notation mem := (mem K).

(** values *)
Record pt4 := P4 { px : K; py : K; pzz : K; pzzz : K }.
Record pt2 := A2 { ax : K; ay : K }.
Definition valP (m : mem) p : pt4 := P4 (m (C 0 p)) (m (C 1 p)) (m (C 2 p)) (m (C 3 p)).
Definition valA (m : mem) p : pt2 := A2 (m (C 0 p)) (m (C 1 p)).

Definition is0 (x : K) : bool := reqb x 0.
Definition p_inf : pt4 := P4 1 1 0 0.
Definition a_inf : pt2 := A2 0 0.
Definition isz4 (p : pt4) : bool := is0 (pzz p).
Definition isz2 (p : pt2) : bool := is0 (ax p) && is0 (ay p).
Definition toP (a : pt2) : pt4 := if isz2 a then p_inf else P4 (ax a) (ay a) 1 1.
Definition toA (p : pt4) : pt2 := if isz4 p then a_inf else A2 (px p * rinv (pzz p)) (py p * rinv (pzzz p)).
Definition neg4 (p : pt4) : pt4 := P4 (px p) (- py p) (pzz p) (pzzz p).
Definition neg2 (p : pt2) : pt2 := A2 (ax p) (- ay p).
Definition dbl4 (p : pt4) : pt4 :=
  if isz4 p then p else
  let U := py p + py p in let V := U * U in let W := U * V in let S := px p * V in
  let M := px p * px p + (px p * px p + px p * px p) + fa * (pzz p * pzz p) in
  let X := M * M - S - S in
  P4 X (M * (S - X) - W * py p) (V * pzz p) (W * pzzz p).
Definition dbl2 (p : pt2) : pt4 :=
  if isz2 p then p_inf else
  let U := ay p + ay p in let V := U * U in let W := U * V in let S := ax p * V in
  let M := ax p * ax p + ax p * ax p + ax p * ax p + fa in
  let X := M * M - S - S in
  P4 X (M * (S - X) - W * ay p) V W.
Definition add44 (p q : pt4) : pt4 :=
  if isz4 p then q else if isz4 q then p else
  let U1 := px p * pzz q in let U2 := px q * pzz p in let S1 := py p * pzzz q in let S2 := py q * pzzz p in
  let P := U2 - U1 in let R := S2 - S1 in
  if is0 P && is0 R then dbl4 p else
  let PP := P * P in let PPP := P * PP in let Q := U1 * PP in
  let X := R * R - PPP - Q - Q in
  P4 X ((Q - X) * R - S1 * PPP) (pzz p * pzz q * PP) (pzzz p * pzzz q * PPP).
Definition add42 (p : pt4) (q : pt2) : pt4 :=
  if isz4 p then toP q else if isz2 q then p else
  let U2 := ax q * pzz p in let S2 := ay q * pzzz p in
  let P := U2 - px p in let R := S2 - py p in
  if is0 P && is0 R then dbl2 q else
  let PP := P * P in let PPP := P * PP in let Q := px p * PP in
  let X := R * R - PPP - Q - Q in
  P4 X ((Q - X) * R - py p * PPP) (pzz p * PP) (pzzz p * PPP).
Definition add22 (p q : pt2) : pt4 :=
  if isz2 p then toP q else if isz2 q then toP p else
  let P := ax q - ax p in let R := ay q - ay p in
  if is0 P && is0 R then dbl2 q else
  let PP := P * P in let PPP := P * PP in let Q := ax p * PP in
  let X := R * R - PPP - Q - Q in
  P4 X ((Q - X) * R - ay p * PPP) PP PPP.
Definition eq44 (p q : pt4) : bool :=
  if isz4 p then isz4 q else is0 (px q * pzz p - px p * pzz q) && is0 (py q * pzzz p - py p * pzzz q).
Definition eq42 (p : pt4) (q : pt2) : bool :=
  if isz4 p then isz2 q else is0 (ax q * pzz p - px p) && is0 (ay q * pzzz p - py p).
Definition eq22 (p q : pt2) : bool := reqb (ax p) (ax q) && reqb (ay p) (ay q).

Lemma upd_at (m : mem) r v p : upd K m r v p = if leqb p r then v else m p. Proof. reflexivity. Qed.
Lemma mulByA_at r a (m : mem) p : mulByA K fa r a m p = if leqb p r then fa * m a else m p.
Proof.
  unfold mulByA, a_type. destruct (reqb fa 0) eqn:E0; [apply reqb_ok in E0; rewrite E0; unfold F_zero, upd; destruct (leqb p r); [ring|reflexivity]|].
  destruct (reqb fa 1) eqn:E1; [apply reqb_ok in E1; rewrite E1; unfold F_copy, upd; destruct (leqb p r); [ring|reflexivity]|].
  destruct (reqb fa (- (1))) eqn:E2; [apply reqb_ok in E2; rewrite E2; unfold F_neg, upd; destruct (leqb p r); [ring|reflexivity]|].
  reflexivity.
Qed.
Lemma add_at r a b (m : mem) p : F_add K r a b m p = if leqb p r then m a + m b else m p. Proof. reflexivity. Qed.
Lemma sub_at r a b (m : mem) p : F_sub K r a b m p = if leqb p r then m a - m b else m p. Proof. reflexivity. Qed.
Lemma mul_at r a b (m : mem) p : F_mul K r a b m p = if leqb p r then m a * m b else m p. Proof. reflexivity. Qed.
Lemma div_at r a b (m : mem) p : F_div K r a b m p = if leqb p r then m a * rinv (m b) else m p. Proof. reflexivity. Qed.
Lemma sq_at r a (m : mem) p : F_square K r a m p = if leqb p r then m a * m a else m p. Proof. reflexivity. Qed.
Lemma neg_at r a (m : mem) p : F_neg K r a m p = if leqb p r then - m a else m p. Proof. reflexivity. Qed.
Lemma cp_at r a (m : mem) p : F_copy K r a m p = if leqb p r then m a else m p. Proof. reflexivity. Qed.
Lemma set_at r v (m : mem) p : F_set K r v m p = if leqb p r then v else m p. Proof. reflexivity. Qed.
Ltac st := repeat (first [rewrite add_at | rewrite sub_at | rewrite mul_at | rewrite div_at | rewrite sq_at | rewrite neg_at | rewrite cp_at | rewrite set_at | rewrite mulByA_at];
  dec; rewrite ?leqb_refl; repeat match goal with H : leqb ?x ?y = false |- _ => progress rewrite H end).
(** resulting value at the destination and everywhere else *)
Definition atP (m' m : mem) (r : loc) (v : pt4) : Prop := forall p, valP m' p = if leqb p r then v else valP m p.
Definition atA (m' m : mem) (r : loc) (v : pt2) : Prop := forall p, valA m' p = if leqb p r then v else valA m p.
Ltac go r := intros p; unfold valP, valA; cbn [px py pzz pzzz ax ay]; destruct (leqb_spec p r) as [->|Np];
  [| pose proof (leqb_neq p r Np)]; st; try reflexivity.
(** memories that differ in field locals only *)
Definition same (m m' : mem) : Prop := forall i p, m' (C i p) = m (C i p).

Lemma PP_copy_at r a (m : mem) : atP (PP_copy K r a m) m r (valP m a).
Proof. unfold PP_copy. go r. Qed.
Lemma AA_copy_at r a (m : mem) : atA (AA_copy K r a m) m r (valA m a).
Proof. unfold AA_copy. go r. Qed.
Lemma PA_copy_at r a (m : mem) : atP (PA_copy K r a m) m r (toP (valA m a)).
Proof.
  unfold PA_copy, toP. change (isz2 (valA m a)) with (A_isZero K a m). destruct (A_isZero K a m); go r.
Qed.
Lemma AP_copy_at r a (m : mem) : atA (AP_copy K r a m) m r (toA (valP m a)).
Proof.
  unfold AP_copy, toA. change (isz4 (valP m a)) with (P_isZero K a m). destruct (P_isZero K a m); go r.
Qed.
Lemma PP_neg_at r a (m : mem) : atP (PP_neg K r a m) m r (neg4 (valP m a)).
Proof. unfold PP_neg, neg4. go r. Qed.
Lemma AA_neg_at r a (m : mem) : atA (AA_neg K r a m) m r (neg2 (valA m a)).
Proof. unfold AA_neg, neg2. go r. Qed.
Lemma PA_neg_at r a (m : mem) : atP (PA_neg K r a m) m r (P4 (m (C 0 a)) (- m (C 1 a)) 1 1).
Proof. unfold PA_neg. go r. Qed.
Lemma AP_neg_at r a (m : mem) : atA (AP_neg K r a m) m r (neg2 (toA (valP m a))).
Proof.
  unfold AP_neg, toA. change (isz4 (valP m a)) with (P_isZero K a m). destruct (P_isZero K a m); go r.
  unfold neg2. cbn. f_equal. ring.
Qed.
Ltac shp := repeat match goal with H : ?M (R (T1 ?i)) = _ |- _ => rewrite H | H : same _ ?M |- _ => rewrite !H end.
Lemma dbl_tail r a (m1 : mem) V W S M :
  m1 (R (T1 12)) = V -> m1 (R (T1 13)) = W -> m1 (R (T1 14)) = S -> m1 (R (T1 15)) = M ->
  atP (F_mul K (C 3 r) (R (T1 13)) (C 3 a) (F_mul K (C 2 r) (R (T1 12)) (C 2 a)
   (F_sub K (C 1 r) (C 1 r) (R (T1 10)) (F_mul K (C 1 r) (R (T1 15)) (C 1 r) (F_sub K (C 1 r) (R (T1 14)) (C 0 r) (F_mul K (R (T1 10)) (R (T1 13)) (C 1 a)
   (F_sub K (C 0 r) (C 0 r) (R (T1 14)) (F_sub K (C 0 r) (C 0 r) (R (T1 14)) (F_square K (C 0 r) (R (T1 15)) m1))))))))) m1 r
   (P4 (M * M - S - S) (M * (S - (M * M - S - S)) - W * m1 (C 1 a)) (V * m1 (C 2 a)) (W * m1 (C 3 a))).
Proof. intros E1 E2 E3 E4. go r; rewrite ?E1, ?E2, ?E3, ?E4; reflexivity. Qed.
Lemma atP_same m' m1 m r v : same m m1 -> atP m' m1 r v -> atP m' m r v.
Proof. intros Hs H p. rewrite (H p). destruct (leqb p r); [reflexivity|]. unfold valP. rewrite !Hs. reflexivity. Qed.
Lemma PP_dbl_at r a (m : mem) : atP (PP_dbl K fa r a m) m r (dbl4 (valP m a)).
Proof.
  unfold PP_dbl, dbl4. change (isz4 (valP m a)) with (P_isZero K a m). destruct (P_isZero K a m); [apply PP_copy_at|]. cbv zeta.
  set (m0 := F_add K (R (T1 15)) (R (T1 15)) (R (T1 10)) _).
  unfold valP. cbn [px py pzz pzzz].
  set (U := m (C 1 a) + m (C 1 a)). set (V := U * U). set (W := U * V). set (S := m (C 0 a) * V).
  set (M0 := m (C 0 a) * m (C 0 a) + (m (C 0 a) * m (C 0 a) + m (C 0 a) * m (C 0 a))).
  assert (S0 : same m m0) by (intros i p; unfold m0; st; reflexivity).
  assert (E1 : m0 (R (T1 12)) = V) by (unfold m0; st; reflexivity).
  assert (E2 : m0 (R (T1 13)) = W) by (unfold m0; st; reflexivity).
  assert (E3 : m0 (R (T1 14)) = S) by (unfold m0; st; reflexivity).
  assert (E4 : m0 (R (T1 15)) = M0) by (unfold m0; st; reflexivity).
  clearbody m0.
  set (m1 := match a_type K fa with a_is_zero => _ | _ => _ end).
  assert (Hm : same m m1 /\ m1 (R (T1 12)) = V /\ m1 (R (T1 13)) = W /\ m1 (R (T1 14)) = S /\ m1 (R (T1 15)) = M0 + fa * (m (C 2 a) * m (C 2 a))).
  { assert (E0 : a_type K fa = a_is_zero -> fa = 0) by (unfold a_type; destruct (reqb fa 0) eqn:E; [intros; apply reqb_ok, E|];
      destruct (reqb fa 1); [discriminate|]; destruct (reqb fa (- (1))); discriminate).
    unfold m1. destruct (a_type K fa); [rewrite E4, (E0 eq_refl); repeat split; auto; ring| | |];
    (split; [intros i p; st; apply S0|]; repeat split; st; rewrite ?E1, ?E2, ?E3, ?E4, ?S0; reflexivity). }
  clearbody m1. destruct Hm as (S1 & F1 & F2 & F3 & F4).
  pose proof (dbl_tail r a m1 _ _ _ _ F1 F2 F3 F4) as H. rewrite !S1 in H. exact (atP_same _ _ _ _ _ S1 H).
Qed.
Lemma PA_dbl_at r a (m : mem) : atP (PA_dbl K fa r a m) m r (dbl2 (valA m a)).
Proof.
  unfold PA_dbl, dbl2. change (isz2 (valA m a)) with (A_isZero K a m). destruct (A_isZero K a m) eqn:E.
  { intros p. rewrite (PA_copy_at r a m p). unfold toP. change (isz2 (valA m a)) with (A_isZero K a m). rewrite E. reflexivity. }
  set (m0 := F_set K (R (T1 15)) _ _). cbv zeta.
  unfold valA. cbn [ax ay].
  set (U := m (C 1 a) + m (C 1 a)). set (V := U * U). set (W := U * V). set (S := m (C 0 a) * V). set (M := _ + fa).
  assert (S0 : forall p, m0 (C 0 p) = m (C 0 p)) by (intros p; unfold m0; st; reflexivity).
  assert (S1 : forall p, m0 (C 1 p) = m (C 1 p)) by (intros p; unfold m0; st; reflexivity).
  assert (S2 : forall p, m0 (C 2 p) = if leqb p r then V else m (C 2 p)) by (intros p; unfold m0; st; reflexivity).
  assert (S3 : forall p, m0 (C 3 p) = if leqb p r then W else m (C 3 p)) by (intros p; unfold m0; st; reflexivity).
  assert (E3 : m0 (R (T1 14)) = S) by (unfold m0; st; reflexivity).
  assert (E4 : m0 (R (T1 15)) = M) by (unfold m0; st; reflexivity).
  clearbody m0. clearbody S V W M.
  go r; rewrite ?S0, ?S1, ?S2, ?S3, ?E3, ?E4, ?leqb_refl, ?H; reflexivity.
Qed.
Lemma add_tail r (m1 : mem) x1 y1 PP PPP Q Rr m2 :
  same m1 m2 -> m2 (R (T1 6)) = Rr -> m2 (R (T1 7)) = PP -> m2 (R (T1 8)) = PPP -> m2 (R (T1 9)) = Q -> m2 x1 = y1 -> (forall p, x1 <> C 0 p) -> x1 <> R (T1 0) ->
  let m' := (F_sub K (C 1 r) (C 1 r) (R (T1 0)) (F_mul K (C 1 r) (C 1 r) (R (T1 6)) (F_sub K (C 1 r) (R (T1 9)) (C 0 r) (F_mul K (R (T1 0)) x1 (R (T1 8))
   (F_sub K (C 0 r) (C 0 r) (R (T1 9)) (F_sub K (C 0 r) (C 0 r) (R (T1 9)) (F_sub K (C 0 r) (C 0 r) (R (T1 8)) (F_square K (C 0 r) (R (T1 6)) m2)))))))) in
  let X := Rr * Rr - PPP - Q - Q in
  (forall p, m' (C 0 p) = if leqb p r then X else m1 (C 0 p)) /\ (forall p, m' (C 1 p) = if leqb p r then (Q - X) * Rr - y1 * PPP else m1 (C 1 p)) /\
  (forall p, m' (C 2 p) = m1 (C 2 p)) /\ (forall p, m' (C 3 p) = m1 (C 3 p)) /\ m' (R (T1 7)) = PP /\ m' (R (T1 8)) = PPP.
Proof.
  intros Hs E6 E7 E8 E9 Ex Nx N0. cbv zeta.
  assert (Nb : forall p, leqb x1 (C 0 p) = false) by (intros p; apply leqb_neq, Nx).
  assert (NbT : leqb x1 (R (T1 0)) = false) by (apply leqb_neq, N0).
  repeat split; intros; st; rewrite ?Nb, ?NbT, ?E6, ?E7, ?E8, ?E9, ?Ex, ?Hs; try reflexivity; destruct (leqb p r); reflexivity.
Qed.
Lemma mid_mem m1 x1 u1 P : m1 (R (T1 5)) = P -> m1 x1 = u1 -> x1 <> R (T1 7) -> x1 <> R (T1 8) ->
  let m2 := F_mul K (R (T1 9)) x1 (R (T1 7)) (F_mul K (R (T1 8)) (R (T1 5)) (R (T1 7)) (F_square K (R (T1 7)) (R (T1 5)) m1)) in
  same m1 m2 /\ m2 (R (T1 6)) = m1 (R (T1 6)) /\ m2 (R (T1 7)) = P * P /\ m2 (R (T1 8)) = P * (P * P) /\ m2 (R (T1 9)) = u1 * (P * P) /\ m2 (R (T1 3)) = m1 (R (T1 3)).
Proof.
  intros E5 Ex N7 N8. cbv zeta. apply leqb_neq in N7, N8.
  repeat split; intros; st; rewrite ?N7, ?N8, ?E5, ?Ex; reflexivity.
Qed.
Lemma PPP_add_at r a b (m : mem) : atP (PPP_add K fa r a b m) m r (add44 (valP m a) (valP m b)).
Proof.
  unfold PPP_add, add44. change (isz4 (valP m a)) with (P_isZero K a m). change (isz4 (valP m b)) with (P_isZero K b m).
  destruct (P_isZero K a m); [apply PP_copy_at|]. destruct (P_isZero K b m); [apply PP_copy_at|].
  set (m1 := F_sub K (R (T1 6)) _ _ _). cbv zeta.
  set (va := valP m a). unfold valP. cbn [px py pzz pzzz]. subst va.
  set (U1 := _ * m (C 2 b)). set (U2 := m (C 0 b) * _). set (S1 := _ * m (C 3 b)). set (S2 := m (C 1 b) * _). set (P := U2 - U1). set (Rr := S2 - S1).
  assert (S0 : same m m1) by (intros i p; unfold m1; st; reflexivity).
  assert (E1 : m1 (R (T1 1)) = U1) by (unfold m1; st; reflexivity).
  assert (E3 : m1 (R (T1 3)) = S1) by (unfold m1; st; reflexivity).
  assert (E5 : m1 (R (T1 5)) = P) by (unfold m1; st; reflexivity).
  assert (E6 : m1 (R (T1 6)) = Rr) by (unfold m1; st; reflexivity).
  clearbody m1. unfold F_isZero. rewrite E5, E6. unfold is0.
  destruct (reqb P 0 && reqb Rr 0).
  { pose proof (PP_dbl_at r a m1) as H. replace (valP m1 a) with (valP m a) in H by (unfold valP; rewrite !S0; reflexivity). exact (atP_same _ _ _ _ _ S0 H). }
  destruct (mid_mem m1 (R (T1 1)) U1 P E5 E1) as (T0 & T6 & T7 & T8 & T9 & T3); try discriminate.
  set (m2 := F_mul K (R (T1 9)) (R (T1 1)) (R (T1 7)) _) in *. clearbody m2. rewrite E6 in T6. rewrite E3 in T3.
  destruct (add_tail r m1 (R (T1 3)) S1 _ _ _ _ m2 T0 T6 T7 T8 T9 T3) as (G0 & G1 & G2 & G3 & G7 & G8); try (intros; discriminate).
  set (m3 := F_sub K (C 1 r) _ _ _) in *. clearbody m3 P Rr U1 S1.
  apply (atP_same _ m1 _ _ _ S0). go r; rewrite ?G0, ?G1, ?G2, ?G3, ?G7, ?G8, ?leqb_refl, ?H, ?S0; reflexivity.
Qed.
Lemma PPA_add_at r a b (m : mem) : atP (PPA_add K fa r a b m) m r (add42 (valP m a) (valA m b)).
Proof.
  unfold PPA_add, add42. change (isz4 (valP m a)) with (P_isZero K a m). change (isz2 (valA m b)) with (A_isZero K b m).
  destruct (P_isZero K a m); [apply PA_copy_at|]. destruct (A_isZero K b m); [apply PP_copy_at|].
  set (m1 := F_sub K (R (T1 6)) _ _ _). cbv zeta.
  set (vb := valA m b). unfold valP. cbn [px py pzz pzzz]. subst vb.
  set (P := _ - m (C 0 a)). set (Rr := _ - m (C 1 a)).
  assert (S0 : same m m1) by (intros i p; unfold m1; st; reflexivity).
  assert (E5 : m1 (R (T1 5)) = P) by (unfold m1; st; reflexivity).
  assert (E6 : m1 (R (T1 6)) = Rr) by (unfold m1; st; reflexivity).
  clearbody m1. unfold F_isZero. rewrite E5, E6. unfold is0.
  destruct (reqb P 0 && reqb Rr 0).
  { pose proof (PA_dbl_at r b m1) as H. replace (valA m1 b) with (valA m b) in H by (unfold valA; rewrite !S0; reflexivity). exact (atP_same _ _ _ _ _ S0 H). }
  destruct (mid_mem m1 (C 0 a) _ P E5 eq_refl) as (T0 & T6 & T7 & T8 & T9 & T3); try discriminate.
  set (m2 := F_mul K (R (T1 9)) (C 0 a) (R (T1 7)) _) in *. clearbody m2. rewrite E6 in T6.
  destruct (add_tail r m1 (C 1 a) _ _ _ _ _ m2 T0 T6 T7 T8 T9 (T0 _ _)) as (G0 & G1 & G2 & G3 & G7 & G8); try (intros; discriminate).
  set (m3 := F_sub K (C 1 r) _ _ _) in *. clearbody m3 P Rr.
  apply (atP_same _ m1 _ _ _ S0). go r; rewrite ?G0, ?G1, ?G2, ?G3, ?G7, ?G8, ?leqb_refl, ?H, ?S0; reflexivity.
Qed.
Lemma PAA_add_at r a b (m : mem) : atP (PAA_add K fa r a b m) m r (add22 (valA m a) (valA m b)).
Proof.
  unfold PAA_add, add22. change (isz2 (valA m a)) with (A_isZero K a m). change (isz2 (valA m b)) with (A_isZero K b m).
  destruct (A_isZero K a m); [apply PA_copy_at|]. destruct (A_isZero K b m); [apply PA_copy_at|].
  set (m1 := F_sub K (R (T1 6)) _ _ _). cbv zeta.
  set (vb := valA m b). unfold valA. cbn [ax ay]. subst vb.
  set (P := _ - m (C 0 a)). set (Rr := _ - m (C 1 a)).
  assert (S0 : same m m1) by (intros i p; unfold m1; st; reflexivity).
  assert (E5 : m1 (R (T1 5)) = P) by (unfold m1; st; reflexivity).
  assert (E6 : m1 (R (T1 6)) = Rr) by (unfold m1; st; reflexivity).
  clearbody m1. unfold F_isZero. rewrite E5, E6. unfold is0.
  destruct (reqb P 0 && reqb Rr 0).
  { pose proof (PA_dbl_at r b m1) as H. replace (valA m1 b) with (valA m b) in H by (unfold valA; rewrite !S0; reflexivity). exact (atP_same _ _ _ _ _ S0 H). }
  destruct (mid_mem m1 (C 0 a) _ P E5 eq_refl) as (T0 & T6 & T7 & T8 & T9 & T3); try discriminate.
  set (m2 := F_mul K (R (T1 9)) (C 0 a) (R (T1 7)) _) in *. clearbody m2. rewrite E6 in T6.
  destruct (add_tail r m1 (C 1 a) _ _ _ _ _ m2 T0 T6 T7 T8 T9 (T0 _ _)) as (G0 & G1 & G2 & G3 & G7 & G8); try (intros; discriminate).
  set (m3 := F_sub K (C 1 r) _ _ _) in *. clearbody m3 P Rr.
  apply (atP_same _ m1 _ _ _ S0). go r; rewrite ?G0, ?G1, ?G2, ?G3, ?G7, ?G8, ?leqb_refl, ?H, ?S0; reflexivity.
Qed.
(** comparisons *)
Lemma PP_eq_at a b (m : mem) : PP_eq K a b m = eq44 (valP m a) (valP m b).
Proof.
  unfold PP_eq, eq44. change (isz4 (valP m a)) with (P_isZero K a m). change (isz4 (valP m b)) with (P_isZero K b m).
  destruct (P_isZero K a m); [reflexivity|]. cbv zeta. unfold F_isZero, is0, valP. cbn [px py pzz pzzz]. st. reflexivity.
Qed.
Lemma PA_eq_at a b (m : mem) : PA_eq K a b m = eq42 (valP m a) (valA m b).
Proof.
  unfold PA_eq, eq42. change (isz4 (valP m a)) with (P_isZero K a m). change (isz2 (valA m b)) with (A_isZero K b m).
  destruct (P_isZero K a m); [reflexivity|]. cbv zeta. unfold F_isZero, is0, valP, valA. cbn [px py pzz pzzz ax ay]. st. reflexivity.
Qed.
Lemma AA_eq_at a b (m : mem) : AA_eq K a b m = eq22 (valA m a) (valA m b).
Proof. reflexivity. Qed.

(** ** frames: only the destination and field locals change *)
Definition frameC (r : loc) (m m' : mem) : Prop := forall c, inside r c = false -> loc1 c = false -> m' c = m c.
Definition wr (r : loc) (m m' : mem) : Prop := forall c, c <> r -> m' c = m c.
Lemma wr_add r a b m : wr r m (F_add K r a b m). Proof. intros c H. rewrite add_at, leqb_neq by auto. reflexivity. Qed.
Lemma wr_sub r a b m : wr r m (F_sub K r a b m). Proof. intros c H. rewrite sub_at, leqb_neq by auto. reflexivity. Qed.
Lemma wr_mul r a b m : wr r m (F_mul K r a b m). Proof. intros c H. rewrite mul_at, leqb_neq by auto. reflexivity. Qed.
Lemma wr_div r a b m : wr r m (F_div K r a b m). Proof. intros c H. rewrite div_at, leqb_neq by auto. reflexivity. Qed.
Lemma wr_sq r a m : wr r m (F_square K r a m). Proof. intros c H. rewrite sq_at, leqb_neq by auto. reflexivity. Qed.
Lemma wr_neg r a m : wr r m (F_neg K r a m). Proof. intros c H. rewrite neg_at, leqb_neq by auto. reflexivity. Qed.
Lemma wr_cp r a m : wr r m (F_copy K r a m). Proof. intros c H. rewrite cp_at, leqb_neq by auto. reflexivity. Qed.
Lemma wr_set r v m : wr r m (F_set K r v m). Proof. intros c H. rewrite set_at, leqb_neq by auto. reflexivity. Qed.
Lemma wr_mulA r a m : wr r m (mulByA K fa r a m). Proof. intros c H. rewrite mulByA_at, leqb_neq by auto. reflexivity. Qed.
Ltac ne := first [apply inside_neq; assumption | (let E := fresh in intros E; match goal with H : loc1 ?c = false |- _ => subst c; cbv in H; discriminate end)].
Ltac frs := repeat first [rewrite wr_add by ne | rewrite wr_sub by ne | rewrite wr_mul by ne | rewrite wr_div by ne | rewrite wr_sq by ne | rewrite wr_neg by ne
  | rewrite wr_cp by ne | rewrite wr_set by ne | rewrite wr_mulA by ne]; try reflexivity.
Lemma PP_copy_fr r a m : frameC r m (PP_copy K r a m). Proof. intros c H L. unfold PP_copy. frs. Qed.
Lemma AA_copy_fr r a m : frameC r m (AA_copy K r a m). Proof. intros c H L. unfold AA_copy. frs. Qed.
Lemma PA_copy_fr r a m : frameC r m (PA_copy K r a m). Proof. intros c H L. unfold PA_copy. destruct (A_isZero K a m); frs. Qed.
Lemma AP_copy_fr r a m : frameC r m (AP_copy K r a m). Proof. intros c H L. unfold AP_copy. destruct (P_isZero K a m); frs. Qed.
Lemma PP_neg_fr r a m : frameC r m (PP_neg K r a m). Proof. intros c H L. unfold PP_neg. frs. Qed.
Lemma AA_neg_fr r a m : frameC r m (AA_neg K r a m). Proof. intros c H L. unfold AA_neg. frs. Qed.
Lemma PA_neg_fr r a m : frameC r m (PA_neg K r a m). Proof. intros c H L. unfold PA_neg. frs. Qed.
Lemma AP_neg_fr r a m : frameC r m (AP_neg K r a m). Proof. intros c H L. unfold AP_neg. destruct (P_isZero K a m); frs. Qed.
Lemma PP_dbl_fr r a m : frameC r m (PP_dbl K fa r a m).
Proof. intros c H L. unfold PP_dbl. destruct (P_isZero K a m); [apply PP_copy_fr; auto|]. cbv zeta. destruct (a_type K fa); frs. Qed.
Lemma PA_dbl_fr r a m : frameC r m (PA_dbl K fa r a m).
Proof. intros c H L. unfold PA_dbl. destruct (A_isZero K a m); [apply PA_copy_fr; auto|]. cbv zeta. frs. Qed.
Lemma PPP_add_fr r a b m : frameC r m (PPP_add K fa r a b m).
Proof.
  intros c H L. unfold PPP_add. destruct (P_isZero K a m); [apply PP_copy_fr; auto|]. destruct (P_isZero K b m); [apply PP_copy_fr; auto|].
  cbv zeta. set (m1 := F_sub K (R (T1 6)) _ _ _). assert (E : m1 c = m c) by (unfold m1; frs). rewrite <- E. clearbody m1.
  destruct (_ && _); [apply PP_dbl_fr; auto|]. frs.
Qed.
Lemma PPA_add_fr r a b m : frameC r m (PPA_add K fa r a b m).
Proof.
  intros c H L. unfold PPA_add. destruct (P_isZero K a m); [apply PA_copy_fr; auto|]. destruct (A_isZero K b m); [apply PP_copy_fr; auto|].
  cbv zeta. set (m1 := F_sub K (R (T1 6)) _ _ _). assert (E : m1 c = m c) by (unfold m1; frs). rewrite <- E. clearbody m1.
  destruct (_ && _); [apply PA_dbl_fr; auto|]. frs.
Qed.
Lemma PAA_add_fr r a b m : frameC r m (PAA_add K fa r a b m).
Proof.
  intros c H L. unfold PAA_add. destruct (A_isZero K a m); [apply PA_copy_fr; auto|]. destruct (A_isZero K b m); [apply PA_copy_fr; auto|].
  cbv zeta. set (m1 := F_sub K (R (T1 6)) _ _ _). assert (E : m1 c = m c) by (unfold m1; frs). rewrite <- E. clearbody m1.
  destruct (_ && _); [apply PA_dbl_fr; auto|]. frs.
Qed.
End CF.
