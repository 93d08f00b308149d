(** Proofs about BinFile. *)
From Coq Require Import ZArith List Bool Lia.
From Verif Require Import Bytes BytesFacts Multiexp BinFile.
Import ListNotations.
Open Scope Z_scope.

(** ** the writer *)
Definition entry := (Z * list Z)%type.   (* type, payload *)
Definition enc_entry (e : entry) : list Z := le_bytes 4 (fst e) ++ le_bytes 8 (zlen (snd e)) ++ snd e.
Definition enc_body (es : list entry) : list Z := concat (map enc_entry es).
Definition encode (magic : list Z) (version : Z) (es : list entry) : list Z :=
  magic ++ le_bytes 4 version ++ le_bytes 4 (Z.of_nat (length es)) ++ enc_body es.
(** payloads of the sections of type [t], in file order *)
Definition of_type (t : Z) (es : list entry) : list (list Z) := map snd (filter (fun e => fst e =? t) es).

Lemma Forall2_impl {A B} (P Q : A -> B -> Prop) l l' : (forall a b, P a b -> Q a b) -> Forall2 P l l' -> Forall2 Q l l'.
Proof. intros H F. induction F; constructor; auto. Qed.
Lemma zlen_app a b : zlen (a ++ b) = zlen a + zlen b.
Proof. unfold zlen. rewrite app_length. lia. Qed.
Lemma zlen_nonneg a : 0 <= zlen a. Proof. unfold zlen. lia. Qed.
Lemma zlen_le k v : zlen (le_bytes k v) = Z.of_nat k.
Proof. unfold zlen. rewrite le_bytes_length. reflexivity. Qed.
Lemma w64_id x : 0 <= x < 2 ^ 64 -> w64 x = x.
Proof. intros. unfold w64. apply Z.mod_small. assumption. Qed.
Lemma bytes_eqb_eq a : forall b, bytes_eqb a b = true <-> a = b.
Proof.
  induction a as [|x a IH]; destruct b as [|y b]; cbn; try (split; congruence).
  rewrite andb_true_iff, Z.eqb_eq, IH. split; [intros [-> ->]; reflexivity | intros H; injection H; auto].
Qed.

Lemma sub_mid a b c : sub (a ++ b ++ c) (zlen a) (zlen b) = b.
Proof.
  unfold sub, zlen. rewrite !Nat2Z.id, skipn_app, Nat.sub_diag, skipn_all2 by lia. cbn [app skipn].
  rewrite firstn_app, Nat.sub_diag, firstn_all. cbn. apply app_nil_r.
Qed.
Lemma fetch_mid a b c : fetch (a ++ b ++ c) (zlen a) (zlen b) = Ok b.
Proof.
  unfold fetch. rewrite sub_mid, !zlen_app. pose proof (zlen_nonneg c).
  replace (zlen a + zlen b <=? zlen a + (zlen b + zlen c)) with true by (symmetry; apply Z.leb_le; lia). reflexivity.
Qed.
Lemma get_le_mid a v c k : 0 <= v < 256 ^ Z.of_nat k -> zlen a + Z.of_nat k < 2 ^ 64 ->
  get_le (Z.of_nat k) (a ++ le_bytes k v ++ c) (zlen a) = Ok (v, zlen a + Z.of_nat k).
Proof.
  intros Hv Ha. unfold get_le. rewrite <- (zlen_le k v) at 1. rewrite fetch_mid. cbn [rbind].
  rewrite le_val_bytes, Z.mod_small, w64_id; [reflexivity | | exact Hv]. pose proof (zlen_nonneg a). lia.
Qed.

(** ** the map of sections *)
Fixpoint secs_of (t : Z) (p : Z) (es : list entry) : list section :=
  match es with
  | [] => []
  | e :: es => (if fst e =? t then [(p + 12, zlen (snd e))] else []) ++ secs_of t (p + 12 + zlen (snd e)) es
  end.
Definition getl (m : smap) t : list section := match lookup m t with Some l => l | None => [] end.
Definition nonempty (m : smap) := forall t l, lookup m t = Some l -> l <> [].
Lemma lookup_push m t s t' : lookup (push m t s) t' = if t' =? t then Some (getl m t ++ [s]) else lookup m t'.
Proof.
  unfold getl. induction m as [|[u l] m IH]; cbn; [destruct (t' =? t); reflexivity|].
  destruct (Z.eqb_spec t u) as [<-|Hn]; cbn.
  - destruct (t' =? t); reflexivity.
  - destruct (Z.eqb_spec t' u) as [->|Hn'].
    + replace (u =? t) with false by (symmetry; apply Z.eqb_neq; congruence). reflexivity.
    + exact IH.
Qed.
Lemma getl_push m t s t' : getl (push m t s) t' = getl m t' ++ (if t =? t' then [s] else []).
Proof.
  unfold getl at 1. rewrite lookup_push, Z.eqb_sym. destruct (Z.eqb_spec t t') as [<-|Hn]; [reflexivity|].
  rewrite app_nil_r. reflexivity.
Qed.
Lemma nonempty_push m t s : nonempty m -> nonempty (push m t s).
Proof.
  intros H t' l. rewrite lookup_push. destruct (t' =? t).
  - intros E. injection E as <-. destruct (getl m t); discriminate.
  - apply H.
Qed.

Definition entry_ok (e : entry) := 0 <= fst e < 2 ^ 32.
Lemma zlen_entry e : zlen (enc_entry e) = 12 + zlen (snd e).
Proof. unfold enc_entry. rewrite !zlen_app, !zlen_le. lia. Qed.
Lemma read_sections_ok es : forall pre post m, Forall entry_ok es -> zlen (pre ++ enc_body es) < 2 ^ 64 -> nonempty m ->
  exists m', read_sections (length es) (pre ++ enc_body es ++ post) (zlen pre) m = Ok m' /\ nonempty m' /\
  forall t, getl m' t = getl m t ++ secs_of t (zlen pre) es.
Proof.
  induction es as [|e es IH]; intros pre post m Hok Hlen Hne.
  - exists m. split; [reflexivity|]. split; [exact Hne|]. intros t. cbn. rewrite app_nil_r. reflexivity.
  - inversion Hok as [|? ? Ht Hoks]; subst. destruct e as [t pl]. unfold entry_ok in Ht. cbn [fst] in Ht.
    unfold enc_body in Hlen. cbn [map concat] in Hlen. fold (enc_body es) in Hlen.
    pose proof (zlen_nonneg pre). pose proof (zlen_nonneg pl). pose proof (zlen_nonneg (enc_body es)).
    rewrite !zlen_app, zlen_entry in Hlen. cbn [snd] in Hlen.
    destruct (IH (pre ++ enc_entry (t, pl)) post (push m t (zlen pre + 12, zlen pl)) Hoks) as (m' & E & Hne' & Hg).
    { rewrite !zlen_app, zlen_entry. cbn [snd]. lia. }
    { apply nonempty_push, Hne. }
    exists m'. split; [|split; [exact Hne'|]].
    + cbn [length read_sections]. unfold enc_body. cbn [map concat]. fold (enc_body es).
      assert (D : pre ++ (enc_entry (t, pl) ++ enc_body es) ++ post = (pre ++ enc_entry (t, pl)) ++ enc_body es ++ post) by (rewrite <- !app_assoc; reflexivity).
      assert (D1 : pre ++ (enc_entry (t, pl) ++ enc_body es) ++ post = pre ++ le_bytes 4 t ++ (le_bytes 8 (zlen pl) ++ pl ++ enc_body es ++ post)).
      { unfold enc_entry. cbn [fst snd]. rewrite <- !app_assoc. reflexivity. }
      assert (D2 : pre ++ (enc_entry (t, pl) ++ enc_body es) ++ post = (pre ++ le_bytes 4 t) ++ le_bytes 8 (zlen pl) ++ (pl ++ enc_body es ++ post)).
      { unfold enc_entry. cbn [fst snd]. rewrite <- !app_assoc. reflexivity. }
      rewrite D1 at 1. change 4 with (Z.of_nat 4) at 1. rewrite get_le_mid; [|exact Ht|lia]. cbn [rbind].
      replace (zlen pre + Z.of_nat 4) with (zlen (pre ++ le_bytes 4 t)) by (rewrite zlen_app, zlen_le; reflexivity).
      rewrite D2 at 1. change 8 with (Z.of_nat 8) at 1. rewrite get_le_mid; [|change (256 ^ Z.of_nat 8) with (2 ^ 64); lia|rewrite zlen_app, zlen_le; lia].
      cbn [rbind]. rewrite zlen_app, zlen_le. replace (zlen pre + Z.of_nat 4 + Z.of_nat 8) with (zlen pre + 12) by lia.
      rewrite w64_id by lia. rewrite D.
      replace (zlen pre + 12 + zlen pl) with (zlen (pre ++ enc_entry (t, pl))) by (rewrite zlen_app, zlen_entry; cbn [snd]; lia).
      exact E.
    + intros u. rewrite Hg, getl_push, <- app_assoc. cbn [secs_of fst snd]. f_equal. f_equal.
      rewrite zlen_app, zlen_entry. cbn [snd]. f_equal. lia.
Qed.

Lemma secs_of_spec t es : forall pre post, Forall2 (fun s pl => snd s = zlen pl /\ sub (pre ++ enc_body es ++ post) (fst s) (snd s) = pl /\
    zlen pre <= fst s /\ fst s + snd s <= zlen (pre ++ enc_body es))
  (secs_of t (zlen pre) es) (of_type t es).
Proof.
  induction es as [|[u pl] es IH]; intros pre post; [constructor|].
  cbn [secs_of fst snd]. unfold of_type. cbn [filter fst].
  specialize (IH (pre ++ enc_entry (u, pl)) post).
  rewrite zlen_app, zlen_entry in IH. cbn [snd] in IH. replace (zlen pre + (12 + zlen pl)) with (zlen pre + 12 + zlen pl) in IH by lia.
  assert (D : pre ++ enc_body ((u, pl) :: es) ++ post = (pre ++ enc_entry (u, pl)) ++ enc_body es ++ post).
  { unfold enc_body. cbn [map concat]. rewrite <- !app_assoc. reflexivity. }
  assert (D' : pre ++ enc_body ((u, pl) :: es) = (pre ++ enc_entry (u, pl)) ++ enc_body es).
  { unfold enc_body. cbn [map concat]. rewrite <- !app_assoc. reflexivity. }
  pose proof (zlen_nonneg pl). pose proof (zlen_nonneg (enc_body es)).
  assert (IH' : Forall2 (fun s pl0 => snd s = zlen pl0 /\ sub (pre ++ enc_body ((u, pl) :: es) ++ post) (fst s) (snd s) = pl0 /\
      zlen pre <= fst s /\ fst s + snd s <= zlen (pre ++ enc_body ((u, pl) :: es))) (secs_of t (zlen pre + 12 + zlen pl) es) (of_type t es)).
  { rewrite D, D'. eapply Forall2_impl; [|exact IH]. cbn beta. intros s p (A & B & C & E). split; [exact A|]. split; [exact B|].
    split; [lia | exact E]. }
  destruct (u =? t); [|exact IH'].
  cbn [map snd]. apply Forall2_cons; [|exact IH']. cbn [fst snd]. split; [reflexivity|]. split; [|split; [lia|]].
  - assert (D2 : pre ++ enc_body ((u, pl) :: es) ++ post = (pre ++ le_bytes 4 u ++ le_bytes 8 (zlen pl)) ++ pl ++ (enc_body es ++ post)).
    { rewrite D. unfold enc_entry. cbn [fst snd]. rewrite <- !app_assoc. reflexivity. }
    refine (eq_trans (f_equal (fun d => sub d _ _) D2) _). replace (zlen pre + 12) with (zlen (pre ++ le_bytes 4 u ++ le_bytes 8 (zlen pl))).
    + apply sub_mid.
    + rewrite !zlen_app, !zlen_le. lia.
  - refine (Z.le_trans _ _ _ _ (Z.eq_le_incl _ _ (f_equal zlen (eq_sym D')))). rewrite !zlen_app, zlen_entry. cbn [snd]. lia.
Qed.

(** ** opening a well-formed file *)
Definition container_ok (magic : list Z) (version : Z) (es : list entry) :=
  length magic = 4%nat /\ 0 <= version < 2 ^ 32 /\ Z.of_nat (length es) < 2 ^ 32 /\ Forall entry_ok es /\
  zlen (encode magic version es) < 2 ^ 64.
Definition hdr (magic : list Z) version (es : list entry) := magic ++ le_bytes 4 version ++ le_bytes 4 (Z.of_nat (length es)).
Lemma encode_hdr magic version es : encode magic version es = hdr magic version es ++ enc_body es.
Proof. unfold encode, hdr. rewrite <- !app_assoc. reflexivity. Qed.
Lemma zlen_hdr magic version es : length magic = 4%nat -> zlen (hdr magic version es) = 12.
Proof. intros H. unfold hdr. rewrite !zlen_app, !zlen_le. unfold zlen. rewrite H. reflexivity. Qed.

Lemma open_ok magic version es maxv rest : container_ok magic version es -> version <= maxv ->
  let d := encode magic version es ++ rest in
  exists f, open_bin d magic maxv = Ok f /\ data f = d /\ pos f = 0 /\ reading f = None /\
  nonempty (sections f) /\
  (forall t, getl (sections f) t = secs_of t 12 es).
Proof.
  intros (Hm & Hv & Hn & He & Hl) Hmax d.
  assert (D0 : d = [] ++ magic ++ (le_bytes 4 version ++ le_bytes 4 (Z.of_nat (length es)) ++ enc_body es ++ rest)).
  { unfold d, encode. rewrite <- !app_assoc. reflexivity. }
  assert (D1 : d = magic ++ le_bytes 4 version ++ (le_bytes 4 (Z.of_nat (length es)) ++ enc_body es ++ rest)).
  { rewrite D0. reflexivity. }
  assert (D2 : d = (magic ++ le_bytes 4 version) ++ le_bytes 4 (Z.of_nat (length es)) ++ (enc_body es ++ rest)).
  { rewrite D1, <- !app_assoc. reflexivity. }
  assert (D3 : d = hdr magic version es ++ enc_body es ++ rest).
  { unfold d. rewrite encode_hdr, <- !app_assoc. reflexivity. }
  assert (Zm : zlen magic = 4) by (unfold zlen; rewrite Hm; reflexivity).
  rewrite encode_hdr in Hl.
  assert (Hh : zlen (hdr magic version es) = 12) by (apply zlen_hdr, Hm).
  destruct (read_sections_ok es (hdr magic version es) rest [] He Hl) as (m & E & Hne & Hg).
  { intros t l H. discriminate. }
  exists {| data := d; sections := m; pos := 0; reading := None |}.
  split; [|split; [reflexivity|split; [reflexivity|split; [reflexivity|split; [exact Hne|]]]]].
  - unfold open_bin. assert (F0 : fetch d 0 4 = Ok magic).
    { rewrite D0. replace 4 with (zlen magic). change 0 with (zlen []). apply fetch_mid. }
    rewrite F0. cbn [rbind]. replace (bytes_eqb magic magic) with true by (symmetry; apply bytes_eqb_eq; reflexivity). cbn [negb].
    assert (F1 : get_le 4 d 4 = Ok (version, 8)).
    { rewrite D1. change 4 with (Z.of_nat 4) at 1. rewrite <- Zm. rewrite get_le_mid; [rewrite Zm; reflexivity|exact Hv|rewrite Zm; reflexivity]. }
    rewrite F1. cbn [rbind]. replace (maxv <? version) with false by (symmetry; apply Z.ltb_ge; lia).
    assert (F2 : get_le 4 d 8 = Ok (Z.of_nat (length es), 12)).
    { rewrite D2. assert (Z8 : zlen (magic ++ le_bytes 4 version) = 8) by (rewrite zlen_app, Zm, zlen_le; reflexivity).
      change 4 with (Z.of_nat 4) at 1. rewrite <- Z8 at 1.
      rewrite get_le_mid; [rewrite Z8; reflexivity | change (256 ^ Z.of_nat 4) with (2 ^ 32); lia | rewrite Z8; reflexivity]. }
    rewrite F2. cbn [rbind]. rewrite Nat2Z.id. rewrite <- D3, Hh in E. rewrite E. reflexivity.
  - intros t. cbn [sections]. rewrite Hg, Hh. reflexivity.
Qed.

Lemma find_getl f t k : nonempty (sections f) ->
  find_section f t k = match nth_error (getl (sections f) t) (Z.to_nat k) with Some s => Ok s | None => Throw end.
Proof.
  intros _. unfold find_section, getl. destruct (lookup (sections f) t) as [l|]; [reflexivity|].
  destruct (Z.to_nat k); reflexivity.
Qed.

(** the k-th section of type t *)
Lemma open_find magic version es maxv rest : container_ok magic version es -> version <= maxv ->
  let d := encode magic version es ++ rest in
  exists f, open_bin d magic maxv = Ok f /\ data f = d /\ pos f = 0 /\ reading f = None /\
  forall t k, match nth_error (of_type t es) (Z.to_nat k) with
    | Some pl => exists o, find_section f t k = Ok (o, zlen pl) /\ 12 <= o /\ o + zlen pl <= zlen (encode magic version es) /\ sub d o (zlen pl) = pl
    | None => find_section f t k = Throw
    end.
Proof.
  intros Hc Hmax d. destruct (open_ok magic version es maxv rest Hc Hmax) as (f & E & Hd & Hp & Hr & Hne & Hg).
  exists f. split; [exact E|]. split; [exact Hd|]. split; [exact Hp|]. split; [exact Hr|].
  intros t k. rewrite (find_getl f t k Hne), Hg.
  destruct Hc as (Hm & _). pose proof (secs_of_spec t es (hdr magic version es) rest) as F. rewrite (zlen_hdr magic version es Hm) in F.
  revert F. generalize (secs_of t 12 es) as l, (of_type t es) as l'. intros l l' F. generalize (Z.to_nat k) as n. clear k.
  induction F as [|s pl l l' H F IH]; intros n; [destruct n; reflexivity|].
  destruct n as [|n]; [|exact (IH n)]. cbn [nth_error]. destruct s as [o sz]. cbn [fst snd] in H. destruct H as (-> & H1 & H2 & H3).
  exists o. split; [reflexivity|]. split; [exact H2|]. split.
  - rewrite encode_hdr. exact H3.
  - rewrite <- H1 at 2. unfold d. rewrite encode_hdr, <- app_assoc. reflexivity.
Qed.
