(** Proofs about the header loaders and about malformed files. *)
From Coq Require Import ZArith List Bool Lia.
From Verif Require Import Bytes BytesFacts Multiexp BinFile BinFileFacts BinFileFacts2.
Import ListNotations.
Open Scope Z_scope.

Definition found (d : list Z) (p : Z) (X : list Z) : Prop := 0 <= p /\ p + zlen X <= zlen d /\ sub d p (zlen X) = X.
Lemma sub_app_l d p a b : 0 <= p -> 0 <= a -> 0 <= b -> p + (a + b) <= zlen d -> forall X Y, zlen X = a -> zlen Y = b -> sub d p (a + b) = X ++ Y -> sub d p a = X /\ sub d (p + a) b = Y.
Proof.
  intros Hp Ha Hb Hl X Y HX HY H. rewrite <- sub_cat in H by lia.
  assert (L : length (sub d p a) = length X) by (rewrite sub_len by lia; unfold zlen in HX; lia).
  revert L H. generalize (sub d p a) as x, (sub d (p + a) b) as y. clear. intros x. revert X. induction x as [|c x IH]; intros [|c' X] y L H; try discriminate L; cbn in *.
  - auto.
  - injection H as -> H. destruct (IH X y) as [-> ->]; auto.
Qed.
Lemma found_app d p X Y : found d p (X ++ Y) -> found d p X /\ found d (p + zlen X) Y.
Proof.
  intros (Hp & Hl & H). rewrite zlen_app in *. pose proof (zlen_nonneg X). pose proof (zlen_nonneg Y).
  destruct (sub_app_l d p (zlen X) (zlen Y)) with (X := X) (Y := Y) as [A B]; try assumption; try reflexivity.
  unfold found. split; [split; [|split]|split; [|split]]; try assumption; lia.
Qed.
Lemma found_fetch d p X : found d p X -> fetch d p (zlen X) = Ok X.
Proof. intros (_ & Hl & H). unfold fetch. rewrite H. replace (_ <=? _) with true by (symmetry; apply Z.leb_le; assumption). reflexivity. Qed.
Lemma rd32 f v : zlen (data f) < 2 ^ 64 -> 0 <= v < 2 ^ 32 -> found (data f) (pos f) (le_bytes 4 v) -> readU32LE f = Ok (v, setpos f (pos f + 4)).
Proof.
  intros Hd Hv H. unfold readU32LE, readLE, get_le. pose proof (found_fetch _ _ _ H) as F. rewrite zlen_le in F. change (Z.of_nat 4) with 4 in F. rewrite F. cbn [rbind].
  rewrite le_val_bytes, Z.mod_small by exact Hv. destruct H as (Hp & Hl & _). rewrite zlen_le in Hl. change (Z.of_nat 4) with 4 in Hl. rewrite w64_id by lia. reflexivity.
Qed.
Lemma import_found f p v n : 0 <= n -> 0 <= v < 256 ^ n -> found (data f) p (le_bytes (Z.to_nat n) v) -> mpz_import_le f n p = Ok v.
Proof.
  intros Hn Hv H. unfold mpz_import_le. pose proof (found_fetch _ _ _ H) as F. rewrite zlen_le, Z2Nat.id in F by exact Hn. rewrite F. cbn [rbind].
  rewrite le_val_bytes, Z2Nat.id, Z.mod_small by assumption. reflexivity.
Qed.

(** ** well-formed headers *)
(** the first section of each type *)
Definition first (t : Z) (es : list entry) (pl : list Z) : Prop := nth_error (of_type t es) 0 = Some pl.
Record zkey_spec := { s_n8q : Z; s_q : Z; s_n8r : Z; s_r : Z; s_nv : Z; s_np : Z; s_ds : Z; s_nc : Z;
  s_a1 : list Z; s_b1 : list Z; s_b2 : list Z; s_g2 : list Z; s_d1 : list Z; s_d2 : list Z }.
Definition u32 (x : Z) := 0 <= x < 2 ^ 32.
Definition zkey_wf (z : zkey_spec) : Prop :=
  u32 (s_n8q z) /\ 0 <= s_q z < 256 ^ s_n8q z /\ u32 (s_n8r z) /\ 0 <= s_r z < 256 ^ s_n8r z /\ u32 (s_nv z) /\ u32 (s_np z) /\ u32 (s_ds z) /\ 0 <= s_nc z /\
  zlen (s_a1 z) = 2 * s_n8q z /\ zlen (s_b1 z) = 2 * s_n8q z /\ zlen (s_b2 z) = 4 * s_n8q z /\ zlen (s_g2 z) = 4 * s_n8q z /\ zlen (s_d1 z) = 2 * s_n8q z /\ zlen (s_d2 z) = 4 * s_n8q z.
Definition zkey_payload (z : zkey_spec) : list Z :=
  le_bytes 4 (s_n8q z) ++ le_bytes (Z.to_nat (s_n8q z)) (s_q z) ++ le_bytes 4 (s_n8r z) ++ le_bytes (Z.to_nat (s_n8r z)) (s_r z) ++
  le_bytes 4 (s_nv z) ++ le_bytes 4 (s_np z) ++ le_bytes 4 (s_ds z) ++ s_a1 z ++ s_b1 z ++ s_b2 z ++ s_g2 z ++ s_d1 z ++ s_d2 z.
(** a file that holds this header: section 1 is the protocol number, section 2
    the header, section 4 a count and that many coefficients of 12 + n8r bytes *)
Definition zkey_file (z : zkey_spec) (es : list entry) : Prop :=
  first 1 es (le_bytes 4 1) /\ first 2 es (zkey_payload z) /\ exists c, first 4 es c /\ zlen c = 4 + s_nc z * (12 + s_n8r z).

Lemma first_find f d es t pl : (forall t k, match nth_error (of_type t es) (Z.to_nat k) with
    | Some pl => exists o, find_section f t k = Ok (o, zlen pl) /\ 12 <= o /\ o + zlen pl <= zlen d /\ sub d o (zlen pl) = pl
    | None => find_section f t k = Throw end) -> first t es pl -> exists o, find_section f t 0 = Ok (o, zlen pl) /\ found d o pl.
Proof.
  intros H F. specialize (H t 0). change (Z.to_nat 0) with 0%nat in H. unfold first in F. rewrite F in H. destruct H as (o & A & B & C & D).
  exists o. split; [exact A|]. unfold found. split; [lia|]. split; assumption.
Qed.
Lemma w32_id x : 0 <= x < 2 ^ 32 -> w32 x = x.
Proof. intros. unfold w32. apply Z.mod_small. assumption. Qed.
Lemma setpos_setpos f p q : setpos (setpos f p) q = setpos f q. Proof. reflexivity. Qed.

(** the state after the fields of section 2 were read; [m2], [m4] are the
    lengths passed to read *)
Lemma zkey_run f z m2 m4 : let d := data f in zlen d < 2 ^ 64 -> reading f = None ->
  forall o1 o2, find_section f 1 0 = Ok (o1, zlen (le_bytes 4 1)) -> found d o1 (le_bytes 4 1) ->
  find_section f 2 0 = Ok (o2, zlen (zkey_payload z)) -> found d o2 (zkey_payload z) -> zkey_wf z ->
  w32 (s_n8q z * 2) = m2 -> w32 (s_n8q z * 4) = m4 -> 0 <= m2 <= 2 * s_n8q z -> 0 <= m4 <= 4 * s_n8q z ->
  let o := o2 + 20 + s_n8q z + s_n8r z in
  zkey_load f = let* f' := endReadSection {| data := d; sections := sections f; pos := o + m2 * 3 + m4 * 3; reading := Some (o2, zlen (zkey_payload z)) |} true in
    let* s4 := getSectionSize f' 4 0 in
    if w32 (12 + s_n8r z) =? 0 then Null else
    Ok ({| n8q := s_n8q z; qPrime := s_q z; n8r := s_n8r z; rPrime := s_r z; nVars := s_nv z; nPublic := s_np z; domainSize := s_ds z; nCoefs := s4 / w32 (12 + s_n8r z);
         vk_alpha1 := o; vk_beta1 := o + m2; vk_beta2 := o + m2 * 2; vk_gamma2 := o + m2 * 2 + m4; vk_delta1 := o + m2 * 2 + m4 * 2; vk_delta2 := o + m2 * 3 + m4 * 2 |}, f').
Proof.
  intros d Hd Hr o1 o2 F1 P1 F2 P2 (W1 & W2 & W3 & W4 & W5 & W6 & W7 & W8 & L1 & L2 & L3 & L4 & L5 & L6) M2 M4 B2 B4 o.
  unfold zkey_load. unfold startReadSection at 1. rewrite F1. cbn [rbind fst]. rewrite Hr. cbn [rbind].
  assert (U1 : u32 1) by (unfold u32; lia). unfold u32 in *.
  erewrite (rd32 _ 1); [|exact Hd|exact U1|exact P1]. cbn [rbind setpos pos data sections reading].
  cbn [Z.eqb Pos.eqb negb]. unfold endReadSection at 1. cbn [reading pos setpos]. rewrite zlen_le. replace (o1 + 4 - o1) with 4 by lia.
  change (w64 4 =? Z.of_nat 4) with true. cbn [negb rbind].
  unfold startReadSection. cbn [find_section sections]. unfold find_section in F2 |- *. cbn [sections setpos data]. rewrite F2. cbn [rbind reading fst].
  set (f2 := {| data := d; sections := sections f; pos := o2; reading := Some (o2, zlen (zkey_payload z)) |}).
  assert (PL : zlen (zkey_payload z) = 20 + s_n8q z + s_n8r z + 18 * s_n8q z).
  { unfold zkey_payload. rewrite !zlen_app, !zlen_le, !Z2Nat.id by lia. lia. }
  assert (Top := P2). destruct Top as (T1 & T2 & _). rewrite PL in T2.
  unfold zkey_payload in P2.
  repeat match goal with H : found _ _ (_ ++ _) |- _ => apply found_app in H; destruct H as [? H] end.
  rewrite ?zlen_le, ?Z2Nat.id in * by lia. change (Z.of_nat 4) with 4 in *.
  change (data f) with d. fold f2.
  assert (R : forall v p, 0 <= v < 2 ^ 32 -> found d p (le_bytes 4 v) -> readU32LE (setpos f2 p) = Ok (v, setpos f2 (p + 4))).
  { intros v p Hv Hf. rewrite (rd32 (setpos f2 p) v); [reflexivity|exact Hd|exact Hv|exact Hf]. }
  assert (Im : forall v n p p', 0 <= n -> 0 <= v < 256 ^ n -> found d p (le_bytes (Z.to_nat n) v) -> mpz_import_le (setpos f2 p') n p = Ok v).
  { intros v n p p' Hn Hv Hf. apply import_found; assumption. }
  match goal with |- context [readU32LE ?x] => change x with (setpos f2 o2) end.
  rewrite (R _ _ W1) by assumption. cbn [rbind]. unfold read at 1. cbn [setpos pos]. rewrite setpos_setpos. rewrite w64_id by lia.
  rewrite (Im (s_q z)) by (assumption || lia). cbn [rbind].
  rewrite (R _ _ W3) by assumption. cbn [rbind]. unfold read at 1. cbn [setpos pos]. rewrite setpos_setpos. rewrite w64_id by lia.
  rewrite (Im (s_r z)) by (assumption || lia). cbn [rbind].
  rewrite (R _ _ W5) by assumption. cbn [rbind]. rewrite (R _ _ W6) by assumption. cbn [rbind]. rewrite (R _ _ W7) by assumption. cbn [rbind].
  rewrite M2, M4. unfold read. cbn [setpos pos data sections reading]. rewrite ?setpos_setpos.
  replace (o2 + 4 + s_n8q z + 4 + s_n8r z + 4 + 4 + 4) with o by (unfold o; lia).
  assert (Ho : 0 <= o /\ o + 18 * s_n8q z < 2 ^ 64) by (unfold o; lia).
  rewrite (w64_id (o + m2)) by lia.
  rewrite (w64_id (o + m2 + m2)) by lia. replace (o + m2 + m2) with (o + m2 * 2) by lia.
  rewrite (w64_id (o + m2 * 2 + m4)) by lia.
  rewrite (w64_id (o + m2 * 2 + m4 + m4)) by lia. replace (o + m2 * 2 + m4 + m4) with (o + m2 * 2 + m4 * 2) by lia.
  rewrite (w64_id (o + m2 * 2 + m4 * 2 + m2)) by lia. replace (o + m2 * 2 + m4 * 2 + m2) with (o + m2 * 3 + m4 * 2) by lia.
  rewrite (w64_id (o + m2 * 3 + m4 * 2 + m4)) by lia. replace (o + m2 * 3 + m4 * 2 + m4) with (o + m2 * 3 + m4 * 3) by lia.
  reflexivity.
Qed.

Definition vk_at (d : list Z) (h : zkey_header) (z : zkey_spec) : Prop :=
  sub d (vk_alpha1 h) (2 * s_n8q z) = s_a1 z /\ sub d (vk_beta1 h) (2 * s_n8q z) = s_b1 z /\ sub d (vk_beta2 h) (4 * s_n8q z) = s_b2 z /\
  sub d (vk_gamma2 h) (4 * s_n8q z) = s_g2 z /\ sub d (vk_delta1 h) (2 * s_n8q z) = s_d1 z /\ sub d (vk_delta2 h) (4 * s_n8q z) = s_d2 z.
Lemma payload_len z : zkey_wf z -> zlen (zkey_payload z) = 20 + s_n8q z + s_n8r z + 18 * s_n8q z.
Proof.
  intros (W1 & W2 & W3 & W4 & W5 & W6 & W7 & W8 & L1 & L2 & L3 & L4 & L5 & L6). unfold u32 in *.
  unfold zkey_payload. rewrite !zlen_app, !zlen_le, !Z2Nat.id by lia. lia.
Qed.
Lemma found_sub d p X n : zlen X = n -> found d p X -> sub d p n = X.
Proof. intros <- (_ & _ & H). exact H. Qed.
Lemma zkey_load_ok f z o1 o2 o4 c : let d := data f in zlen d < 2 ^ 64 -> reading f = None ->
  find_section f 1 0 = Ok (o1, zlen (le_bytes 4 1)) -> found d o1 (le_bytes 4 1) ->
  find_section f 2 0 = Ok (o2, zlen (zkey_payload z)) -> found d o2 (zkey_payload z) ->
  find_section f 4 0 = Ok (o4, zlen c) -> zlen c = 4 + s_nc z * (12 + s_n8r z) -> zkey_wf z -> s_n8q z < 2 ^ 30 -> s_n8r z < 2 ^ 32 - 12 ->
  exists h f', zkey_load f = Ok (h, f') /\ reading f' = None /\ data f' = d /\
    n8q h = s_n8q z /\ qPrime h = s_q z /\ n8r h = s_n8r z /\ rPrime h = s_r z /\ nVars h = s_nv z /\ nPublic h = s_np z /\ domainSize h = s_ds z /\ nCoefs h = s_nc z /\ vk_at d h z.
Proof.
  intros d Hd Hr F1 P1 F2 P2 F4 C4 W Hq Hn. pose proof (payload_len z W) as PL. assert (W' := W).
  destruct W' as (W1 & W2 & W3 & W4 & W5 & W6 & W7 & W8 & L1 & L2 & L3 & L4 & L5 & L6). unfold u32 in *.
  rewrite (zkey_run f z (2 * s_n8q z) (4 * s_n8q z) Hd Hr o1 o2 F1 P1 F2 P2 W); [|rewrite w32_id; lia|rewrite w32_id; lia|lia|lia]. cbv zeta.
  unfold endReadSection. cbn [reading pos data sections]. rewrite w64_id.
  2: { destruct P2 as (A & B & _). rewrite PL in B. fold d in B, Hd. lia. }
  rewrite PL. replace (_ =? _) with true by (symmetry; apply Z.eqb_eq; lia). cbn [negb rbind].
  unfold getSectionSize, find_section in F4 |- *. cbn [sections]. rewrite F4. cbn [rbind snd]. rewrite w32_id by lia.
  replace (12 + s_n8r z =? 0) with false by (symmetry; apply Z.eqb_neq; lia).
  eexists. eexists. split; [reflexivity|]. cbn [reading data n8q qPrime n8r rPrime nVars nPublic domainSize nCoefs].
  repeat (split; [reflexivity|]). split.
  - rewrite C4. rewrite Z.add_comm, Z.div_add_l by lia. rewrite Z.div_small by lia. lia.
  - unfold vk_at. cbn [vk_alpha1 vk_beta1 vk_beta2 vk_gamma2 vk_delta1 vk_delta2]. fold d in P2. unfold zkey_payload in P2.
    repeat match goal with H : found _ _ (_ ++ _) |- _ => apply found_app in H; destruct H as [? H] end.
    rewrite ?zlen_le, ?Z2Nat.id, ?L1, ?L2, ?L3, ?L4, ?L5, ?L6 in * by lia. change (Z.of_nat 4) with 4 in *.
    repeat split; (apply found_sub; [assumption|]); match goal with H : found _ ?p ?x |- found _ ?q ?x => replace q with p by lia; exact H end.
Qed.
Lemma zkey_load_large f z o1 o2 : let d := data f in zlen d < 2 ^ 64 -> reading f = None ->
  find_section f 1 0 = Ok (o1, zlen (le_bytes 4 1)) -> found d o1 (le_bytes 4 1) ->
  find_section f 2 0 = Ok (o2, zlen (zkey_payload z)) -> found d o2 (zkey_payload z) -> zkey_wf z -> 2 ^ 30 <= s_n8q z ->
  zkey_load f = Throw.
Proof.
  intros d Hd Hr F1 P1 F2 P2 W Hq. pose proof (payload_len z W) as PL. assert (W' := W).
  destruct W' as (W1 & W2 & W3 & W4 & W5 & W6 & W7 & W8 & L1 & L2 & L3 & L4 & L5 & L6). unfold u32 in *.
  assert (B : forall x, 0 <= x -> 0 <= w32 x <= x) by (intros x Hx; unfold w32; split; [apply Z.mod_pos_bound; lia | apply Z.mod_le; lia]).
  pose proof (B (s_n8q z * 2)). pose proof (B (s_n8q z * 4)).
  rewrite (zkey_run f z _ _ Hd Hr o1 o2 F1 P1 F2 P2 W eq_refl eq_refl); [|lia|lia]. cbv zeta.
  unfold endReadSection. cbn [reading pos data sections].
  assert (E : w32 (s_n8q z * 4) < 2 ^ 32) by (unfold w32; apply Z.mod_pos_bound; lia).
  destruct P2 as (A & C & _). fold d in C, Hd. rewrite PL in *.
  rewrite w64_id by lia. replace (_ =? _) with false by (symmetry; apply Z.eqb_neq; lia). reflexivity.
Qed.

Lemma zkey_load_div f z o1 o2 o4 c : let d := data f in zlen d < 2 ^ 64 -> reading f = None ->
  find_section f 1 0 = Ok (o1, zlen (le_bytes 4 1)) -> found d o1 (le_bytes 4 1) ->
  find_section f 2 0 = Ok (o2, zlen (zkey_payload z)) -> found d o2 (zkey_payload z) ->
  find_section f 4 0 = Ok (o4, c) -> zkey_wf z -> s_n8q z < 2 ^ 30 -> s_n8r z = 2 ^ 32 - 12 ->
  zkey_load f = Null.
Proof.
  intros d Hd Hr F1 P1 F2 P2 F4 W Hq Hn. pose proof (payload_len z W) as PL. assert (W' := W).
  destruct W' as (W1 & W2 & W3 & W4 & W5 & W6 & W7 & W8 & L1 & L2 & L3 & L4 & L5 & L6). unfold u32 in *.
  rewrite (zkey_run f z (2 * s_n8q z) (4 * s_n8q z) Hd Hr o1 o2 F1 P1 F2 P2 W); [|rewrite w32_id; lia|rewrite w32_id; lia|lia|lia]. cbv zeta.
  unfold endReadSection. cbn [reading pos data sections]. rewrite w64_id.
  2: { destruct P2 as (A & B & _). rewrite PL in B. fold d in B, Hd. lia. }
  rewrite PL. replace (_ =? _) with true by (symmetry; apply Z.eqb_eq; lia). cbn [negb rbind].
  unfold getSectionSize, find_section in F4 |- *. cbn [sections]. rewrite F4. cbn [rbind snd]. rewrite Hn. reflexivity.
Qed.

(** ** witness files *)
Record wtns_spec := { t_n8 : Z; t_prime : Z; t_nVars : Z }.
Definition wtns_wf (w : wtns_spec) : Prop := u32 (t_n8 w) /\ 0 <= t_prime w < 256 ^ t_n8 w /\ u32 (t_nVars w).
Definition wtns_payload (w : wtns_spec) : list Z := le_bytes 4 (t_n8 w) ++ le_bytes (Z.to_nat (t_n8 w)) (t_prime w) ++ le_bytes 4 (t_nVars w).
Lemma wtns_load_ok f w o : let d := data f in zlen d < 2 ^ 64 -> reading f = None -> find_section f 1 0 = Ok (o, zlen (wtns_payload w)) -> found d o (wtns_payload w) -> wtns_wf w ->
  exists f', wtns_load f = Ok ({| w_n8 := t_n8 w; w_prime := t_prime w; w_nVars := t_nVars w |}, f') /\ reading f' = None /\ data f' = d.
Proof.
  intros d Hd Hr F P (W1 & W2 & W3). unfold u32 in *.
  assert (PL : zlen (wtns_payload w) = 8 + t_n8 w) by (unfold wtns_payload; rewrite !zlen_app, !zlen_le, Z2Nat.id by lia; lia).
  assert (T := P). destruct T as (T1 & T2 & _). rewrite PL in T2. unfold wtns_payload in P.
  repeat match goal with H : found _ _ (_ ++ _) |- _ => apply found_app in H; destruct H as [? H] end.
  rewrite ?zlen_le, ?Z2Nat.id in * by lia. change (Z.of_nat 4) with 4 in *.
  unfold wtns_load, startReadSection. rewrite F. cbn [rbind fst]. rewrite Hr. cbn [rbind].
  erewrite (rd32 _ (t_n8 w)); [|exact Hd|assumption|eassumption]. cbn [rbind]. unfold read. cbn [setpos pos data sections reading]. rewrite w64_id by lia.
  erewrite (import_found _ _ (t_prime w)); [|lia|assumption|eassumption]. cbn [rbind].
  erewrite (rd32 _ (t_nVars w)); [|exact Hd|assumption|eassumption]. cbn [rbind]. unfold endReadSection. cbn [setpos reading pos data sections].
  rewrite PL. rewrite w64_id by lia. replace (_ =? _) with true by (symmetry; apply Z.eqb_eq; lia). cbn [negb rbind].
  eexists. split; [reflexivity|]. split; reflexivity.
Qed.

(** ** what is accepted *)
Fixpoint msize (l : list section) : Z := match l with [] => 0 | s :: l => 12 + snd s + msize l end.
Fixpoint declared (m : smap) : Z := match m with [] => 0 | (_, l) :: m => msize l + declared m end.
Lemma msize_app a b : msize (a ++ b) = msize a + msize b.
Proof. induction a as [|x a IH]; cbn [app msize]; lia. Qed.
Lemma declared_push m t s : declared (push m t s) = declared m + (12 + snd s).
Proof. induction m as [|[u l] m IH]; cbn [push declared msize]; [lia|]. destruct (t =? u); cbn [declared]; [rewrite msize_app; cbn [msize]|]; lia. Qed.
Lemma fetch_found d p n l : 0 <= p -> 0 <= n -> fetch d p n = Ok l -> found d p l /\ zlen l = n.
Proof.
  intros Hp Hn H. unfold fetch in H. destruct (Z.leb_spec (p + n) (zlen d)) as [L|L]; [|discriminate]. injection H as <-.
  assert (E : zlen (sub d p n) = n) by (unfold zlen at 1; rewrite sub_len by lia; lia). split; [|exact E]. unfold found. rewrite E. auto.
Qed.
Lemma get_le_found d p k v p' : bytes_ok d -> 0 <= p -> get_le (Z.of_nat k) d p = Ok (v, p') -> found d p (le_bytes k v) /\ 0 <= v < 256 ^ Z.of_nat k /\ p' = w64 (p + Z.of_nat k).
Proof.
  intros Hb Hp H. unfold get_le in H. destruct (fetch d p (Z.of_nat k)) as [l| | |] eqn:F; try discriminate H. cbn [rbind] in H. injection H as <- <-.
  destruct (fetch_found d p (Z.of_nat k) l) as [Fd E]; [assumption|lia|assumption|].
  assert (B : bytes_ok l). { destruct Fd as (_ & _ & <-). apply sub_ok, Hb. }
  assert (N : length l = k) by (unfold zlen in E; lia).
  rewrite <- N at 1. rewrite le_bytes_val by exact B. split; [exact Fd|]. split; [|reflexivity]. rewrite <- N. apply le_val_bound, B.
Qed.
Lemma found_cat d p X Y : found d p X -> found d (p + zlen X) Y -> found d p (X ++ Y).
Proof.
  intros (A & B & C) (D & E & F). pose proof (zlen_nonneg X). pose proof (zlen_nonneg Y). unfold found. rewrite zlen_app. split; [assumption|]. split; [lia|].
  rewrite <- sub_cat by lia. rewrite C, F. reflexivity.
Qed.
Lemma read_sections_mono n : forall d p m m', bytes_ok d -> 0 <= p -> read_sections n d p m = Ok m' -> declared m <= declared m'.
Proof.
  induction n as [|n IH]; intros d p m m' Hb Hp H; cbn [read_sections] in H; [injection H as <-; lia|].
  change 4 with (Z.of_nat 4) in H. destruct (get_le (Z.of_nat 4) d p) as [[t p1]| | |] eqn:G1; try discriminate H. cbn [rbind] in H. apply get_le_found in G1; [|assumption|lia]. destruct G1 as (F1 & B1 & E1).
  assert (W : forall x, 0 <= w64 x) by (intros; unfold w64; apply Z.mod_pos_bound; lia). assert (0 <= p1) by (rewrite E1; apply W).
  change 8 with (Z.of_nat 8) in H. destruct (get_le (Z.of_nat 8) d p1) as [[z p2]| | |] eqn:G2; try discriminate H. cbn [rbind] in H. apply get_le_found in G2; [|assumption|lia]. destruct G2 as (F2 & B2 & E2).
  apply IH in H; [|assumption|apply W]. rewrite declared_push in H. cbn [snd] in H. lia.
Qed.
Lemma read_sections_inv n : forall d p m m', bytes_ok d -> zlen d < 2 ^ 64 -> 0 <= p <= zlen d -> read_sections n d p m = Ok m' ->
  declared m <= declared m' /\ (p + (declared m' - declared m) <= zlen d ->
  exists es, length es = n /\ Forall entry_ok es /\ found d p (enc_body es)).
Proof.
  induction n as [|n IH]; intros d p m m' Hb Hd Hp H; cbn [read_sections] in H.
  - injection H as <-. split; [lia|]. intros _. exists []. split; [reflexivity|]. split; [constructor|]. unfold found. change (zlen (enc_body [])) with 0. split; [lia|]. split; [lia|reflexivity].
  - change 4 with (Z.of_nat 4) in H. destruct (get_le (Z.of_nat 4) d p) as [[t p1]| | |] eqn:G1; try discriminate H. cbn [rbind] in H.
    apply get_le_found in G1; [|assumption|lia]. destruct G1 as (F1 & B1 & E1). assert (L1 := F1). destruct L1 as (_ & L1 & _). rewrite zlen_le in L1. rewrite w64_id in E1 by lia.
    change 8 with (Z.of_nat 8) in H. destruct (get_le (Z.of_nat 8) d p1) as [[z p2]| | |] eqn:G2; try discriminate H. cbn [rbind] in H.
    apply get_le_found in G2; [|assumption|lia]. destruct G2 as (F2 & B2 & E2). assert (L2 := F2). destruct L2 as (_ & L2 & _). rewrite zlen_le in L2. rewrite w64_id in E2 by lia.
    subst p1 p2. change (Z.of_nat 4) with 4 in *. change (Z.of_nat 8) with 8 in *. change (256 ^ 8) with (2 ^ 64) in B2. change (256 ^ 4) with (2 ^ 32) in B1.
    destruct (Z_le_gt_dec (p + 4 + 8 + z) (zlen d)) as [In|Out].
    + rewrite w64_id in H by lia. apply IH in H; [|assumption|assumption|lia]. rewrite declared_push in H. cbn [snd] in H. destruct H as [H1 H2]. split; [lia|].
      intros T. destruct H2 as (es & N & Ok & F); [lia|]. 
      assert (F3 : found d (p + 4 + 8) (sub d (p + 4 + 8) z)).
      { assert (E : zlen (sub d (p + 4 + 8) z) = z) by (unfold zlen at 1; rewrite sub_len by lia; lia). unfold found. rewrite E. split; [lia|]. split; [lia|reflexivity]. }
      assert (E : zlen (sub d (p + 4 + 8) z) = z) by (unfold zlen at 1; rewrite sub_len by lia; lia).
      exists ((t, sub d (p + 4 + 8) z) :: es). split; [cbn; congruence|]. split; [constructor; [exact B1|exact Ok]|].
      unfold enc_body. cbn [map concat]. unfold enc_entry at 1. cbn [fst snd]. rewrite <- !app_assoc. rewrite E. apply found_cat; [exact F1|]. rewrite zlen_le.
      apply found_cat; [exact F2|]. rewrite zlen_le. apply found_cat; [exact F3|]. rewrite E. exact F.
    + (* a section that does not fit *)
      assert (D : declared m + (12 + z) <= declared m').
      { apply read_sections_mono in H; [|assumption|unfold w64; apply Z.mod_pos_bound; lia]. rewrite declared_push in H. cbn [snd] in H. lia. }
      split; [lia|]. intros T. lia.
Qed.
Lemma found_split d X : found d 0 X -> exists rest, d = X ++ rest.
Proof.
  intros (_ & H & E). exists (skipn (length X) d). rewrite <- E at 1. unfold sub. change (Z.to_nat 0) with 0%nat. cbn [skipn]. unfold zlen. rewrite Nat2Z.id.
  symmetry. apply firstn_skipn.
Qed.
Lemma open_inv d magic maxv f : bytes_ok d -> zlen d < 2 ^ 64 -> length magic = 4%nat -> open_bin d magic maxv = Ok f -> 12 + declared (sections f) <= zlen d ->
  exists version es rest, container_ok magic version es /\ version <= maxv /\ d = encode magic version es ++ rest.
Proof.
  intros Hb Hd Hm H T. unfold open_bin in H. destruct (fetch d 0 4) as [t| | |] eqn:F0; try discriminate H. cbn [rbind] in H.
  destruct (bytes_eqb t magic) eqn:E0; [|discriminate H]. apply bytes_eqb_eq in E0. subst t. cbn [negb] in H.
  apply fetch_found in F0; [|lia|lia]. destruct F0 as [F0 Z0].
  change (get_le 4) with (get_le (Z.of_nat 4)) in H. destruct (get_le (Z.of_nat 4) d 4) as [[v p1]| | |] eqn:G1; try discriminate H. cbn [rbind] in H.
  apply get_le_found in G1; [|assumption|lia]. destruct G1 as (F1 & B1 & E1). change (w64 (4 + Z.of_nat 4)) with 8 in E1. subst p1.
  destruct (Z.ltb_spec maxv v) as [|Hv]; [discriminate H|].
  destruct (get_le (Z.of_nat 4) d 8) as [[n p2]| | |] eqn:G2; try discriminate H. cbn [rbind] in H.
  apply get_le_found in G2; [|assumption|lia]. destruct G2 as (F2 & B2 & E2). change (w64 (8 + Z.of_nat 4)) with 12 in E2. subst p2.
  destruct (read_sections (Z.to_nat n) d 12 []) as [m| | |] eqn:R; try discriminate H. cbn [rbind] in H. injection H as <-. cbn [sections] in T.
  assert (L2 := F2). destruct L2 as (_ & L2 & _). rewrite zlen_le in L2.
  apply read_sections_inv in R; [|assumption|assumption|lia]. destruct R as [_ R]. cbn [declared] in R. destruct R as (es & N & Ok & F); [lia|].
  assert (X : found d 0 (encode magic v es)).
  { unfold encode. apply found_cat; [exact F0|]. rewrite Z0. apply found_cat; [exact F1|]. rewrite zlen_le. rewrite N, Z2Nat.id by lia.
    apply found_cat; [exact F2|]. rewrite zlen_le. exact F. }
  destruct (found_split _ _ X) as [rest D]. exists v, es, rest. split; [|split; [exact Hv|exact D]].
  unfold container_ok. split; [exact Hm|]. split; [exact B1|]. split; [change (256 ^ Z.of_nat 4) with (2 ^ 32) in B2; lia|]. split; [exact Ok|].
  destruct X as (_ & X & _). lia.
Qed.
