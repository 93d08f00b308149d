(** Properties C35, C36, C53: multi-exponentiation. *)
From Coq Require Import ZArith List Lia Bool Permutation.
From Verif Require Import Bytes BytesFacts Group GroupTac Naf NafFacts Multiexp MultiexpFacts MultiexpFacts2 Msm MsmFacts MultiexpFacts3.
Import ListNotations.
Open Scope Z_scope.
Ltac Zify.zify_post_hook ::= idtac.

(** ** C35 *)
(** [ks]: the scalars, S bytes each; [rep], [repB]: which group element an
    object of type Point, PointAffine stands for; [sc]: an execution of the
    parallel loops. *)
Theorem C35_multiexp : forall (A : abgroup) (E : Type) (rep repB : E -> A -> Prop) zero cleared dbl add addm subm isz iszm,
  point_ops A E rep repB zero dbl add addm subm -> point_tests A E rep repB cleared isz iszm ->
  forall (ks : list (list Z)) (bases : list E) (Ps : list A) (S nT : Z) (sc : sched),
  Forall2 repB bases Ps -> scalars_ok S ks -> length ks = length Ps -> 8 <= S < 2 ^ 28 -> Z.of_nat (length ks) * S < 2 ^ 64 -> 1 <= nT < 2 ^ 48 ->
  legal (Z.of_nat (length ks)) nT (bits_per_chunk (Z.of_nat (length ks))) sc ->
  exists r, multiexp E zero cleared dbl add addm subm isz iszm bases (concat ks) S (Z.of_nat (length ks)) nT sc = Some r /\ rep r (msum (map le_val ks) Ps).
Proof.
  intros A E rep repB zero cleared dbl add addm subm isz iszm O T ks bases Ps S nT sc HB HK HL HS H64 HT HC. rewrite <- msum_all.
  apply (multiexp_list rep repB zero cleared dbl add addm subm isz iszm O no_skip (fun _ => true)); auto.
Qed.
Print Assumptions C35_multiexp.
(** the integers, with objects standing for themselves *)
Definition zrep : Z -> Zgroup -> Prop := fun e x => e = x.
Lemma zops : point_ops Zgroup Z zrep zrep 0 (fun x => x + x) Z.add Z.add Z.sub.
Proof. split; unfold zrep; cbn; intros; subst; reflexivity. Qed.
Lemma ztests : point_tests Zgroup Z zrep zrep 0 (fun x => x =? 0) (fun x => x =? 0).
Proof. split; unfold zrep; cbn; intros; subst; try reflexivity; apply Z.eqb_eq; assumption. Qed.
(** three points on two threads, every loop running backwards *)
Definition rv (nT lo hi : Z) : list (Z * Z) := map (fun i => (i, i mod nT)) (rev (zrange lo (Z.to_nat (hi - lo)))).
Definition sc_rev (n nT bits : Z) : sched :=
  {| s_proc := fun _ => rv nT 0 n; s_pack := fun _ => rev (zrange 0 (Z.to_nat (2 ^ bits))); s_red := fun _ b => rv nT 1 (2 ^ (Z.of_nat b - 1)) |}.
Lemma rv_ran nT lo hi : ran fst (rv nT lo hi) lo hi.
Proof. unfold ran, rv. rewrite map_map. cbn [fst]. rewrite map_id. apply Permutation_sym, Permutation_rev. Qed.
Lemma rv_on nT lo hi : 0 < nT -> on_threads nT (rv nT lo hi).
Proof. intros H. unfold on_threads, rv. apply Forall_forall. intros x Hx. apply in_map_iff in Hx. destruct Hx as (i & <- & _). cbn [snd]. apply Z.mod_pos_bound, H. Qed.
Lemma sc_rev_legal n nT bits : 0 < nT -> legal n nT bits (sc_rev n nT bits).
Proof.
  intros H c. cbn. split; [apply rv_ran|]. split; [apply rv_on, H|]. split.
  - unfold ran. rewrite map_id, Z.sub_0_r. apply Permutation_sym, Permutation_rev.
  - intros b _. split; [apply rv_ran|apply rv_on, H].
Qed.
Definition ks3 : list (list Z) := [[1; 2; 3; 4; 5; 6; 7; 8]; [255; 255; 255; 255; 255; 255; 255; 255]; [10; 0; 0; 0; 0; 0; 0; 0]].
Example C35_ex : legal 3 2 (bits_per_chunk 3) (sc_rev 3 2 2) /\ Forall2 zrep [7; -4; 5] [7; -4; 5] /\ scalars_ok 8 ks3 /\
  multiexp Z 0 0 (fun x => x + x) Z.add Z.add Z.sub (fun x => x =? 0) (fun x => x =? 0) [7; -4; 5] (concat ks3) 8 3 2 (sc_rev 3 2 2) = Some (7 * 578437695752307201 - 4 * (2 ^ 64 - 1) + 50).
Proof.
  split; [apply (sc_rev_legal 3 2 2); lia|]. split; [repeat constructor|]. split; [|vm_compute; reflexivity].
  repeat constructor; try lia.
Qed.
(** scalars of fewer than 8 bytes: getChunk reads outside the array *)
Example C35_short : multiexp Z 0 0 (fun x => x + x) Z.add Z.add Z.sub (fun x => x =? 0) (fun x => x =? 0) [7; 5] [1; 0; 0; 0; 1; 0; 0; 0] 4 2 1 (sc_rev 2 1 2) = None.
Proof. vm_compute. reflexivity. Qed.

(** ** C53: the strided version *)
(** point i belongs to polynomial i mod nX and is its coefficient i / nX; those
    at or beyond the size of their polynomial are left out *)
Definition in_size (nX : Z) (size : list Z) (i : Z) : bool := i / nX <? nth (Z.to_nat (i mod nX)) size 0.
Theorem C53_multiexp_nx_partial : forall (A : abgroup) (E : Type) (rep repB : E -> A -> Prop) zero cleared dbl add addm subm isz iszm,
  point_ops A E rep repB zero dbl add addm subm -> point_tests A E rep repB cleared isz iszm ->
  forall (ks : list (list Z)) (bases : list E) (Ps : list A) (S nT nX : Z) (size : list Z) (sc : sched),
  Forall2 repB bases Ps -> scalars_ok S ks -> length ks = length Ps -> 8 <= S < 2 ^ 28 -> Z.of_nat (length ks) * S < 2 ^ 64 -> 1 <= nT < 2 ^ 48 ->
  1 <= nX < 2 ^ 32 -> Z.of_nat (length size) = nX -> Forall (fun s => 1 <= s <= 2 ^ 32) size ->
  legal (Z.of_nat (length ks)) nT (bits_per_chunk (Z.of_nat (length ks))) sc ->
  exists r, multiexp_nx E zero cleared dbl add addm subm isz iszm nX size bases (concat ks) S (Z.of_nat (length ks)) nT sc = Some r /\
    rep r (msum (map (fun ik => if in_size nX size (fst ik) then le_val (snd ik) else 0) (combine (zrange 0 (length ks)) ks)) Ps).
Proof.
  intros A E rep repB zero cleared dbl add addm subm isz iszm O T ks bases Ps S nT nX size sc HB HK HL HS H64 HT HX HLs HF HC.
  assert (SZ : forall i, 0 <= i -> 1 <= nth (Z.to_nat (i mod nX)) size 0 <= 2 ^ 32).
  { intros i Hi. rewrite Forall_forall in HF. apply HF, nth_In. pose proof (Z.mod_pos_bound i nX ltac:(lia)). lia. }
  apply (multiexp_list rep repB zero cleared dbl add addm subm isz iszm O (nx_skip nX size) (in_size nX size)); auto.
  - intros i Hi. unfold nx_skip. destruct (Z.eqb_spec nX 0); [lia|]. pose proof (Z.mod_pos_bound i nX ltac:(lia)) as MB. pose proof (Z.div_mod i nX ltac:(lia)) as DM. unfold w32.
    rewrite (Z.mod_small (i mod nX)) by lia. unfold aget. destruct (Z.ltb_spec (i mod nX) 0); [lia|]. rewrite (nth_error_nth' size 0) by lia. cbn [obind].
    specialize (SZ i ltac:(lia)). unfold in_size. set (s := nth _ size 0) in *. rewrite (Z.mod_small (s - 1)) by lia. unfold w64. rewrite Z.mod_small by nia. f_equal.
    set (q := i / nX) in *. destruct (Z.ltb_spec ((s - 1) * nX + i mod nX) i), (Z.ltb_spec q s); try reflexivity; nia.
  - intros _. unfold in_size. rewrite Z.div_0_l by lia. apply Z.ltb_lt. specialize (SZ 0 ltac:(lia)). lia.
Qed.
Print Assumptions C53_multiexp_nx_partial.
Example C53_ex : in_size 2 [2; 1] 2 = true /\ in_size 2 [2; 1] 3 = false /\
  multiexp_nx Z 0 0 (fun x => x + x) Z.add Z.add Z.sub (fun x => x =? 0) (fun x => x =? 0) 2 [2; 1] [7; 11; 13; 17] (concat (ks3 ++ [[1; 0; 0; 0; 0; 0; 0; 0]])) 8 4 2 (sc_rev 4 2 2)
    = Some (7 * 578437695752307201 + 11 * (2 ^ 64 - 1) + 130).
Proof. split; [|split]; vm_compute; reflexivity. Qed.
(** an empty polynomial: nothing should be included, everything is *)
Theorem C53_empty_refuted : exists (nX : Z) (size : list Z) (bases : list Z) (scalars : list Z),
  (forall i, 0 <= i < 2 -> in_size nX size i = false) /\
  multiexp_nx Z 0 0 (fun x => x + x) Z.add Z.add Z.sub (fun x => x =? 0) (fun x => x =? 0) nX size bases scalars 8 2 1 (sc_rev 2 1 2) = Some 12.
Proof.
  exists 1, [0], [7; 5], [1; 0; 0; 0; 0; 0; 0; 0; 1; 0; 0; 0; 0; 0; 0; 0]. split; [|vm_compute; reflexivity].
  intros i Hi. unfold in_size. rewrite Z.div_1_r, Z.mod_1_r. cbn [Z.to_nat nth]. apply Z.ltb_ge. lia.
Qed.
Print Assumptions C53_empty_refuted.

(** ** C36 *)
(** what run computes for every input: a scalar above the largest integer with
    nC signed digits loses 2^(bits nC) *)
Theorem C36_run_exact : forall (A : abgroup) (E : Type) (rep repB : E -> A -> Prop) zero dbl add addm subm,
  point_ops A E rep repB zero dbl add addm subm ->
  forall bits junkZ junkE (ks : list (list Z)) (bases : list E) (Ps : list A) (S nT : Z) sched1 sched2,
  Forall2 repB bases Ps -> scalars_ok S ks -> length ks = length Ps -> 8 <= S < 2 ^ 28 -> Z.of_nat (length ks) < 2 ^ 31 -> (2 <= length ks)%nat -> 1 <= bits <= 16 -> 1 <= nT < 2 ^ 48 ->
  let nC := (8 * S - 1) / bits + 1 in
  let top := (2 ^ (bits - 1) - 1) * (2 ^ (bits * nC) - 1) / (2 ^ bits - 1) in
  ran (fun i => i) sched1 0 (Z.of_nat (length ks)) -> ran fst sched2 0 nC -> on_threads nT sched2 ->
  exists r, run_with E zero dbl add addm subm bits junkZ junkE bases (concat ks) S (Z.of_nat (length ks)) nT sched1 sched2 = Some r /\
    rep r (msum (map (fun s => le_val s - (if top <? le_val s then 2 ^ (bits * nC) else 0)) ks) Ps).
Proof.
  intros A E rep repB zero dbl add addm subm O bits junkZ junkE ks bases Ps S nT sched1 sched2 HB HK HL HS H31 H2 Hb HT nC top R1 R2 R3.
  destruct (run_list rep repB zero dbl add addm subm O bits junkZ junkE ks bases Ps S nT sched1 sched2) as (r & E1 & Rr); auto. exists r. split; [exact E1|].
  replace (msum _ _) with (msum (map (fun s => le_val s - top_carry bits S (le_val s) * 2 ^ (bits * nC)) ks) Ps); [exact Rr|]. f_equal. apply map_ext. intros s. unfold top_carry. fold nC. fold top.
  destruct (top <? le_val s); lia.
Qed.
Print Assumptions C36_run_exact.
(** correct when the two top bits of every scalar are clear, as they are for
    scalars reduced modulo a 254-bit prime stored in 32 bytes *)
Theorem C36_run_partial : forall (A : abgroup) (E : Type) (rep repB : E -> A -> Prop) zero dbl add addm subm,
  point_ops A E rep repB zero dbl add addm subm ->
  forall junkZ junkE (ks : list (list Z)) (bases : list E) (Ps : list A) (S nT : Z) sched1 sched2,
  Forall2 repB bases Ps -> scalars_ok S ks -> length ks = length Ps -> 8 <= S < 2 ^ 28 -> Z.of_nat (length ks) < 2 ^ 31 -> 1 <= nT < 2 ^ 48 ->
  Forall (fun s => le_val s < 2 ^ (8 * S - 2)) ks ->
  ran (fun i => i) sched1 0 (Z.of_nat (length ks)) -> ran fst sched2 0 ((8 * S - 1) / calcBitsPerChunk (Z.of_nat (length ks)) S + 1) -> on_threads nT sched2 ->
  exists r, run E zero dbl add addm subm junkZ junkE bases (concat ks) S (Z.of_nat (length ks)) nT sched1 sched2 = Some r /\ rep r (msum (map le_val ks) Ps).
Proof. exact run_small. Qed.
Print Assumptions C36_run_partial.
Definition sc_chunks (n S nT : Z) : list (Z * Z) := rv nT 0 ((8 * S - 1) / calcBitsPerChunk n S + 1).
Example C36_ex : let ks := [[1; 2; 3; 4; 5; 6; 7; 8]; [255; 255; 255; 255; 255; 255; 255; 63]] in
  scalars_ok 8 ks /\ Forall (fun s => le_val s < 2 ^ (8 * 8 - 2)) ks /\ calcBitsPerChunk 2 8 = 3 /\
  run Z 0 (fun x => x + x) Z.add Z.add Z.sub (fun _ => 77) (fun _ => 99) [7; -4] (concat ks) 8 2 2 [1; 0] (sc_chunks 2 8 2) = Some (7 * 578437695752307201 - 4 * (2 ^ 62 - 1)).
Proof. cbv zeta. split; [repeat constructor; try lia|]. split; [repeat constructor|]. split; vm_compute; reflexivity. Qed.
(** fifteen 32-byte scalars, the first one 2^256-1 *)
Theorem C36_carry_refuted : exists (ks : list (list Z)) (bases : list Z) r,
  scalars_ok 32 ks /\ length bases = length ks /\ Z.of_nat (length ks) = 15 /\
  run Z 0 (fun x => x + x) Z.add Z.add Z.sub (fun _ => 0) (fun _ => 0) bases (concat ks) 32 15 1 (zrange 0 15) (sc_chunks 15 32 1) = Some r /\
  r <> @msum Zgroup (map le_val ks) bases /\ r = -1 /\ @msum Zgroup (map le_val ks) bases = 2 ^ 256 - 1.
Proof.
  exists (repeat 255 32 :: repeat (repeat 0 32) 14), (1 :: repeat 0 14), (-1).
  assert (M : @msum Zgroup (map le_val (repeat 255 32 :: repeat (repeat 0 32) 14)) (1 :: repeat 0 14) = 2 ^ 256 - 1).
  { unfold msum. cbn [map combine repeat fst snd]. unfold gsum. cbn [fold_right]. rewrite !zmul_Z. vm_compute. reflexivity. }
  split; [repeat constructor; try lia|]. split; [reflexivity|]. split; [reflexivity|]. split; [vm_compute; reflexivity|]. rewrite M. split; [discriminate|]. split; reflexivity.
Qed.
Print Assumptions C36_carry_refuted.
