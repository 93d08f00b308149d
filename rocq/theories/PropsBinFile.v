(** Properties C44-C47: container files and headers. *)
From Coq Require Import ZArith List Bool Lia.
From Verif Require Import Bytes BytesFacts Multiexp BinFile BinFileFacts BinFileFacts2 BinFileFacts3.
Import ListNotations.
Open Scope Z_scope.

Definition bytes_okb (l : list Z) : bool := forallb (fun b => (0 <=? b) && (b <? 256)) l.
Lemma bytes_okb_ok l : bytes_okb l = true -> bytes_ok l.
Proof.
  unfold bytes_okb. rewrite forallb_forall. intros H. apply Forall_forall. intros x Hx. specialize (H x Hx). apply andb_true_iff in H. destruct H as [A B].
  apply Z.leb_le in A. apply Z.ltb_lt in B. lia.
Qed.
(** ** C44 *)
(** the k-th section of type t of a written file (possibly followed by more
    bytes) is found with its size and its bytes; other sections do not exist *)
Theorem C44_sections : forall magic version es maxv rest, container_ok magic version es -> version <= maxv ->
  let d := encode magic version es ++ rest in
  exists f, open_bin d magic maxv = Ok f /\
  forall t k, match nth_error (of_type t es) (Z.to_nat k) with
    | Some pl => exists o, getSectionData f t k = Ok o /\ getSectionSize f t k = Ok (zlen pl) /\ sub d o (zlen pl) = pl
    | None => getSectionData f t k = Throw /\ getSectionSize f t k = Throw /\ startReadSection f t k = Throw
    end.
Proof.
  intros magic version es maxv rest Hc Hv d. destruct (open_find magic version es maxv rest Hc Hv) as (f & E & Hd & _ & _ & H). fold d in E, Hd, H.
  exists f. split; [exact E|]. intros t k. specialize (H t k). unfold getSectionData, getSectionSize, startReadSection. destruct (nth_error _ _) as [pl|].
  - destruct H as (o & F & _ & _ & S). exists o. rewrite F. cbn. auto.
  - rewrite H. cbn. auto.
Qed.
Print Assumptions C44_sections.
(** reading a section by any sequence of reads yields the bytes of the payload in order *)
Theorem C44_payload : forall magic version es maxv rest, container_ok magic version es -> version <= maxv ->
  let d := encode magic version es ++ rest in bytes_ok d -> zlen d < 2 ^ 64 ->
  forall f t k pl cs, open_bin d magic maxv = Ok f -> nth_error (of_type t es) (Z.to_nat k) = Some pl -> Forall is_read cs -> total cs <= zlen pl ->
  exists os f', runs f (Start t k :: cs) = Some (map (fun c => (c, true)) (Start t k :: cs), Done :: os, f') /\
    concat (map (seen d) os) = firstn (Z.to_nat (total cs)) pl.
Proof.
  intros magic version es maxv rest Hc Hv d Hb Hl f t k pl cs E N Hr Ht.
  destruct (open_find magic version es maxv rest Hc Hv) as (f0 & E0 & Hd & _ & Hi & H). fold d in E0, Hd, H. rewrite E in E0. injection E0 as <-.
  specialize (H t k). rewrite N in H. destruct H as (o & F & B1 & B2 & S). pose proof (total_nonneg cs Hr).
  assert (Q : zlen (encode magic version es) <= zlen d) by (unfold d; rewrite zlen_app; pose proof (zlen_nonneg rest); lia).
  set (f1 := {| data := data f; sections := sections f; pos := o; reading := Some (o, zlen pl) |}).
  destruct (reads_ok cs f1) as (os & R & C); try exact Hr; unfold f1; cbn [data pos]; rewrite ?Hd; try assumption; try lia.
  exists os. eexists. split.
  - cbn [runs exec]. unfold startReadSection. rewrite F. cbn [rbind fst]. rewrite Hi. cbn [rbind]. match goal with |- context [runs ?x cs] => change x with f1 end. rewrite R. reflexivity.
  - unfold f1 in C. cbn [data pos] in C. rewrite Hd in C. rewrite C. rewrite <- S. unfold sub. rewrite firstn_firstn. f_equal. lia.
Qed.
Print Assumptions C44_payload.
Definition ex_magic := [122; 107; 101; 121].
Definition ex_es : list entry := [(1, [10; 11]); (7, []); (1, [1; 2; 3; 4; 5; 6; 7; 8; 9; 10; 11; 12; 13]); (4294967295, [255])].
Ltac container := unfold container_ok; split; [reflexivity|]; split; [lia|]; split; [reflexivity|]; split; [repeat (apply Forall_cons; [unfold entry_ok; cbn [fst]; lia|]); apply Forall_nil|vm_compute; reflexivity].
Lemma ex_ok : container_ok ex_magic 1 ex_es.
Proof. unfold ex_es. container. Qed.
Definition opened (d : list Z) : bin := match open_bin d ex_magic 1 with Ok f => f | _ => {| data := []; sections := []; pos := 0; reading := None |} end.
Example C44_ex : container_ok ex_magic 1 ex_es /\ bytes_ok (encode ex_magic 1 ex_es ++ [0]) /\
  of_type 1 ex_es = [[10; 11]; [1; 2; 3; 4; 5; 6; 7; 8; 9; 10; 11; 12; 13]] /\
  exists f, open_bin (encode ex_magic 1 ex_es ++ [0]) ex_magic 1 = Ok f /\
  option_map (fun r => snd (fst r)) (runs f [Start 1 1; U32; Rd 1; U64]) = Some [Done; Num 4 67305985; Ptr 54 1; Num 8 940138559942690566].
Proof.
  split; [exact ex_ok|]. split; [apply bytes_okb_ok; vm_compute; reflexivity|]. split; [reflexivity|]. exists (opened (encode ex_magic 1 ex_es ++ [0])). split; vm_compute; reflexivity.
Qed.

(** ** C45 *)
(** opening reads outside the copy of a file that ends early *)
Theorem C45_short_refuted : exists d, bytes_ok d /\ zlen d = 20 /\ open_bin d ex_magic 1 = Oob.
Proof. exists (ex_magic ++ le_bytes 4 1 ++ le_bytes 4 1 ++ le_bytes 4 9 ++ le_bytes 4 0). split; [apply bytes_okb_ok; vm_compute; reflexivity|]. split; vm_compute; reflexivity. Qed.
Print Assumptions C45_short_refuted.
(** and a section may be accepted although its bytes are not in the file *)
Theorem C45_section_refuted : exists d f o n, bytes_ok d /\ open_bin d ex_magic 1 = Ok f /\ getSectionData f 9 0 = Ok o /\ getSectionSize f 9 0 = Ok n /\ zlen d < o + n /\ runs f [Start 9 0; U32] = None.
Proof.
  set (d := ex_magic ++ le_bytes 4 1 ++ le_bytes 4 1 ++ le_bytes 4 9 ++ le_bytes 8 1000). exists d, (opened d), 24, 1000.
  split; [apply bytes_okb_ok; vm_compute; reflexivity|]. split; [vm_compute; reflexivity|]. split; [vm_compute; reflexivity|]. split; [vm_compute; reflexivity|]. split; vm_compute; reflexivity.
Qed.
Print Assumptions C45_section_refuted.
(** what holds: wrong magic numbers and versions are rejected; files that
    contain what they declare are opened without such a read; and an accepted
    file that is long enough for the sections it declares is a written one *)
Theorem C45_partial : forall d magic maxv, bytes_ok d -> zlen d < 2 ^ 64 -> length magic = 4%nat ->
  (4 <= zlen d -> firstn 4 d <> magic -> open_bin d magic maxv = Throw) /\
  (8 <= zlen d -> maxv < le_val (firstn 4 (skipn 4 d)) -> open_bin d magic maxv = Throw) /\
  (forall version es rest, container_ok magic version es -> version <= maxv -> d = encode magic version es ++ rest -> exists f, open_bin d magic maxv = Ok f) /\
  (forall f, open_bin d magic maxv = Ok f -> 12 + declared (sections f) <= zlen d -> exists version es rest, container_ok magic version es /\ version <= maxv /\ d = encode magic version es ++ rest).
Proof.
  intros d magic maxv Hb Hd Hm. split; [|split; [|split]].
  - intros L N. unfold open_bin, fetch. replace (0 + 4 <=? zlen d) with true by (symmetry; apply Z.leb_le; lia). cbn [rbind].
    destruct (bytes_eqb (sub d 0 4) magic) eqn:E; [|reflexivity]. apply bytes_eqb_eq in E. destruct (N E).
  - intros L N. unfold open_bin, get_le, fetch. replace (0 + 4 <=? zlen d) with true by (symmetry; apply Z.leb_le; lia). cbn [rbind].
    destruct (bytes_eqb (sub d 0 4) magic); [|reflexivity]. cbn [negb]. replace (4 + 4 <=? zlen d) with true by (symmetry; apply Z.leb_le; lia). cbn [rbind].
    change (sub d 4 4) with (firstn 4 (skipn 4 d)). replace (maxv <? _) with true by (symmetry; apply Z.ltb_lt; lia). reflexivity.
  - intros version es rest Hc Hv ->. destruct (open_ok magic version es maxv rest Hc Hv) as (f & E & _). exists f. exact E.
  - intros f. apply open_inv; assumption.
Qed.
Print Assumptions C45_partial.
Example C45_ex : (exists f, open_bin (encode ex_magic 1 ex_es ++ [0]) ex_magic 1 = Ok f /\ 12 + declared (sections f) = 76 /\ zlen (encode ex_magic 1 ex_es ++ [0]) = 77) /\
  open_bin (encode ex_magic 2 ex_es) ex_magic 1 = Throw /\ open_bin (0 :: encode ex_magic 1 ex_es) ex_magic 1 = Throw.
Proof. split; [exists (opened (encode ex_magic 1 ex_es ++ [0])); split; [|split]; vm_compute; reflexivity|split; vm_compute; reflexivity]. Qed.

(** ** C46 *)
(** every sequence of calls that does not run into undefined behaviour follows
    the protocol ([legal]): a section is started iff it exists and none is being
    read; endReadSection with its check succeeds iff the number of bytes read
    since then is the size of the section (modulo 2^64); the reader is idle iff
    the last section started was ended *)
Theorem C46_protocol_partial : forall d magic maxv f cs log os f', open_bin d magic maxv = Ok f -> runs f cs = Some (log, os, f') ->
  map fst log = cs /\ legal (size_of f) None log /\ (reading f' = None <-> after None log = None).
Proof.
  intros d magic maxv f cs log os f' H R. assert (I : reading f = None).
  { unfold open_bin in H. repeat match type of H with rbind ?e _ = _ => destruct e as [?| | |]; cbn [rbind] in H; try discriminate H | (let '(_, _) := ?x in _) = _ => destruct x end; 
    repeat match type of H with (if ?b then _ else _) = _ => destruct b; try discriminate H | rbind ?e _ = _ => destruct e as [?| | |]; cbn [rbind] in H; try discriminate H | (let '(_, _) := ?x in _) = _ => destruct x end.
    injection H as <-. reflexivity. }
  apply (runs_legal cs f None) in R; [|unfold tracks; rewrite I; exact Logic.I]. destruct R as (M & L & T & _). split; [exact M|]. split; [exact L|].
  unfold tracks in T. destruct (after None log) as [[[? ?] ?]|], (reading f'); try destruct T; split; congruence.
Qed.
Print Assumptions C46_protocol_partial.
(** false for two kinds of sequences: ending without a section follows a null
    pointer, and lengths that wrap pass the check *)
Theorem C46_end_refuted : exists d f, open_bin d ex_magic 1 = Ok f /\ exec f (End true) = Null.
Proof. exists (encode ex_magic 1 ex_es), (opened (encode ex_magic 1 ex_es)). split; vm_compute; reflexivity. Qed.
Print Assumptions C46_end_refuted.
Theorem C46_wrap_refuted : exists d f, open_bin d ex_magic 1 = Ok f /\ option_map (fun r => fst (fst r)) (runs f [Start 1 0; Rd (2 ^ 64 - 1); Rd 3; End true]) =
  Some [(Start 1 0, true); (Rd (2 ^ 64 - 1), true); (Rd 3, true); (End true, true)] /\ getSectionSize f 1 0 = Ok 2.
Proof. exists (encode ex_magic 1 ex_es), (opened (encode ex_magic 1 ex_es)). split; [vm_compute; reflexivity|]. split; vm_compute; reflexivity. Qed.
Print Assumptions C46_wrap_refuted.
Example C46_ex : exists f, open_bin (encode ex_magic 1 ex_es) ex_magic 1 = Ok f /\
  option_map (fun r => fst (fst r)) (runs f [Start 1 1; U32; End true; Start 7 0; U64; Rd 1; End true; Start 7 0; End true; Start 5 0; Start 1 2; Start 1 0; End false]) =
  Some [(Start 1 1, true); (U32, true); (End true, false); (Start 7 0, false); (U64, true); (Rd 1, true); (End true, true); (Start 7 0, true); (End true, true); (Start 5 0, false); (Start 1 2, false); (Start 1 0, true); (End false, true)].
Proof. exists (opened (encode ex_magic 1 ex_es)). split; vm_compute; reflexivity. Qed.

(** ** C47 *)
Theorem C47_wtns : forall magic version es maxv rest w, container_ok magic version es -> version <= maxv ->
  let d := encode magic version es ++ rest in zlen d < 2 ^ 64 -> wtns_wf w -> first 1 es (wtns_payload w) ->
  exists f f', open_bin d magic maxv = Ok f /\ wtns_load f = Ok ({| w_n8 := t_n8 w; w_prime := t_prime w; w_nVars := t_nVars w |}, f') /\ reading f' = None.
Proof.
  intros magic version es maxv rest w Hc Hv d Hl W F. destruct (open_find magic version es maxv rest Hc Hv) as (f & E & Hd & _ & Hi & H). fold d in E, Hd, H.
  assert (Q : zlen (encode magic version es) <= zlen d) by (unfold d; rewrite zlen_app; pose proof (zlen_nonneg rest); lia).
  destruct (first_find f d es 1 (wtns_payload w)) as (o & A & B); [|exact F|].
  { intros t k. specialize (H t k). destruct (nth_error _ _); [|exact H]. destruct H as (o & A & B & C & D). exists o. split; [exact A|]. split; [exact B|]. split; [lia|exact D]. }
  destruct (wtns_load_ok f w o) as (f' & R & I & _); rewrite ?Hd; try assumption. exists f, f'. auto.
Qed.
Print Assumptions C47_wtns.
Example C47_wtns_ex : let w := {| t_n8 := 32; t_prime := 21888242871839275222246405745257275088548364400416034343698204186575808495617; t_nVars := 1000 |} in
  wtns_wf w /\ let es := [(2, [1; 2; 3]); (1, wtns_payload w)] in container_ok [119; 116; 110; 115] 2 es /\ first 1 es (wtns_payload w).
Proof.
  cbv zeta. split; [unfold wtns_wf, u32; cbn [t_n8 t_prime t_nVars]; lia|]. split; [|reflexivity].
  container.
Qed.
(** groth16 keys with n8q < 2^30 and n8r < 2^32 - 12 *)
Theorem C47_zkey_partial : forall magic version es maxv rest z, container_ok magic version es -> version <= maxv ->
  let d := encode magic version es ++ rest in zlen d < 2 ^ 64 -> zkey_wf z -> zkey_file z es -> s_n8q z < 2 ^ 30 -> s_n8r z < 2 ^ 32 - 12 ->
  exists f h f', open_bin d magic maxv = Ok f /\ zkey_load f = Ok (h, f') /\ reading f' = None /\
    n8q h = s_n8q z /\ qPrime h = s_q z /\ n8r h = s_n8r z /\ rPrime h = s_r z /\ nVars h = s_nv z /\ nPublic h = s_np z /\ domainSize h = s_ds z /\ nCoefs h = s_nc z /\ vk_at d h z.
Proof.
  intros magic version es maxv rest z Hc Hv d Hl W (F1 & F2 & c & F4 & C4) Hq Hr. destruct (open_find magic version es maxv rest Hc Hv) as (f & E & Hd & _ & Hi & H). fold d in E, Hd, H.
  assert (Q : zlen (encode magic version es) <= zlen d) by (unfold d; rewrite zlen_app; pose proof (zlen_nonneg rest); lia).
  assert (H' : forall t k, match nth_error (of_type t es) (Z.to_nat k) with
    | Some pl => exists o, find_section f t k = Ok (o, zlen pl) /\ 12 <= o /\ o + zlen pl <= zlen d /\ sub d o (zlen pl) = pl
    | None => find_section f t k = Throw end).
  { intros t k. specialize (H t k). destruct (nth_error _ _); [|exact H]. destruct H as (o & A & B & C & D). exists o. split; [exact A|]. split; [exact B|]. split; [lia|exact D]. }
  destruct (first_find f d es _ _ H' F1) as (o1 & A1 & B1). destruct (first_find f d es _ _ H' F2) as (o2 & A2 & B2). destruct (first_find f d es _ _ H' F4) as (o4 & A4 & B4).
  destruct (zkey_load_ok f z o1 o2 o4 c) as (h & f' & R & I & _ & S); rewrite ?Hd; try assumption. exists f, h, f'. split; [exact E|]. split; [exact R|]. split; [exact I|]. rewrite Hd in S. exact S.
Qed.
Print Assumptions C47_zkey_partial.
Definition ex_z : zkey_spec := {| s_n8q := 2; s_q := 65521; s_n8r := 1; s_r := 251; s_nv := 5; s_np := 1; s_ds := 8; s_nc := 2;
  s_a1 := [1; 2; 3; 4]; s_b1 := [5; 6; 7; 8]; s_b2 := [1; 2; 3; 4; 5; 6; 7; 8]; s_g2 := [8; 7; 6; 5; 4; 3; 2; 1]; s_d1 := [0; 0; 0; 9]; s_d2 := [0; 0; 0; 0; 1; 1; 1; 1] |}.
Definition ex_zes : list entry := [(4, repeat 0 30); (2, zkey_payload ex_z); (1, [1; 0; 0; 0]); (3, [1; 2])].
Example C47_zkey_ex : container_ok ex_magic 1 ex_zes /\ zkey_wf ex_z /\ zkey_file ex_z ex_zes /\
  match open_bin (encode ex_magic 1 ex_zes) ex_magic 1 with Ok f => match zkey_load f with Ok (h, _) => (n8q h, qPrime h, rPrime h, domainSize h, nCoefs h, vk_beta1 h) = (2, 65521, 251, 8, 2, 93) | _ => False end | _ => False end.
Proof.
  split; [unfold ex_zes; container|].
  split; [unfold zkey_wf, u32; cbn; lia|]. split; [|vm_compute; reflexivity].
  split; [reflexivity|]. split; [reflexivity|]. exists (repeat 0 30). split; reflexivity.
Qed.
(** keys with a larger field are well-formed files, but are rejected *)
Definition zeros (n : Z) : list Z := repeat 0 (Z.to_nat n).
Lemma zlen_zeros n : 0 <= n -> zlen (zeros n) = n.
Proof. intros. unfold zlen, zeros. rewrite repeat_length. lia. Qed.
Theorem C47_large_refuted : exists magic version es z f, container_ok magic version es /\ zkey_wf z /\ zkey_file z es /\ open_bin (encode magic version es) magic version = Ok f /\ zkey_load f = Throw.
Proof.
  set (n := 2 ^ 30).
  set (z := {| s_n8q := n; s_q := 0; s_n8r := 0; s_r := 0; s_nv := 0; s_np := 0; s_ds := 0; s_nc := 0;
    s_a1 := zeros (2 * n); s_b1 := zeros (2 * n); s_b2 := zeros (4 * n); s_g2 := zeros (4 * n); s_d1 := zeros (2 * n); s_d2 := zeros (4 * n) |}).
  set (es := [(1, le_bytes 4 1); (2, zkey_payload z); (4, [0; 0; 0; 0])]).
  assert (Hn : n = 1073741824) by reflexivity.
  assert (W : zkey_wf z).
  { unfold zkey_wf, u32, z. cbn [s_n8q s_q s_n8r s_r s_nv s_np s_ds s_nc s_a1 s_b1 s_b2 s_g2 s_d1 s_d2]. rewrite !zlen_zeros by lia.
    assert (0 < 256 ^ n) by (apply Z.pow_pos_nonneg; lia). assert (0 < 256 ^ 0) by reflexivity. lia. }
  pose proof (payload_len z W) as PL. change (s_n8q z) with n in PL. change (s_n8r z) with 0 in PL.
  assert (Zl : zlen (encode ex_magic 1 es) = 12 + (12 + 4) + (12 + zlen (zkey_payload z)) + (12 + 4)).
  { unfold encode, es. rewrite !zlen_app, !zlen_le. unfold enc_body. cbn [map concat]. rewrite !zlen_app, !zlen_entry. cbn [snd]. rewrite zlen_le. change (zlen ex_magic) with 4. change (zlen []) with 0. change (zlen [0; 0; 0; 0]) with 4. lia. }
  assert (C : container_ok ex_magic 1 es).
  { unfold container_ok. split; [reflexivity|]. split; [lia|]. split; [unfold es; cbn [length]; lia|]. split; [|rewrite Zl, PL; lia].
    unfold es. repeat constructor; cbn [fst]; lia. }
  assert (F1 : first 1 es (le_bytes 4 1)) by reflexivity. assert (F2 : first 2 es (zkey_payload z)) by reflexivity.
  destruct (open_find ex_magic 1 es 1 [] C (Z.le_refl 1)) as (f & E & Hd & _ & Hi & H). rewrite app_nil_r in E, Hd, H.
  destruct (first_find f _ es _ _ H F1) as (o1 & A1 & B1). destruct (first_find f _ es _ _ H F2) as (o2 & A2 & B2).
  exists ex_magic, 1, es, z, f. split; [exact C|]. split; [exact W|]. split; [split; [exact F1|split; [exact F2|exists [0; 0; 0; 0]; split; reflexivity]]|]. split; [exact E|].
  apply (zkey_load_large f z o1 o2); rewrite ?Hd; [rewrite Zl, PL; lia|exact Hi|exact A1|exact B1|exact A2|exact B2|exact W|change (s_n8q z) with n; lia].
Qed.
Print Assumptions C47_large_refuted.
(** and n8r = 2^32 - 12 makes the divisor of the number of coefficients 0 *)
Theorem C47_div_refuted : exists magic version es z f, container_ok magic version es /\ zkey_wf z /\ zkey_file z es /\ open_bin (encode magic version es) magic version = Ok f /\ zkey_load f = Null.
Proof.
  set (n := 2 ^ 32 - 12).
  set (z := {| s_n8q := 1; s_q := 0; s_n8r := n; s_r := 0; s_nv := 0; s_np := 0; s_ds := 0; s_nc := 0;
    s_a1 := zeros (2 * 1); s_b1 := zeros (2 * 1); s_b2 := zeros (4 * 1); s_g2 := zeros (4 * 1); s_d1 := zeros (2 * 1); s_d2 := zeros (4 * 1) |}).
  set (es := [(1, le_bytes 4 1); (2, zkey_payload z); (4, [0; 0; 0; 0])]).
  assert (Hn : n = 4294967284) by reflexivity.
  assert (W : zkey_wf z).
  { unfold zkey_wf, u32, z. cbn [s_n8q s_q s_n8r s_r s_nv s_np s_ds s_nc s_a1 s_b1 s_b2 s_g2 s_d1 s_d2]. rewrite !zlen_zeros by lia.
    assert (0 < 256 ^ n) by (apply Z.pow_pos_nonneg; lia). assert (0 < 256 ^ 1) by reflexivity. lia. }
  pose proof (payload_len z W) as PL. change (s_n8q z) with 1 in PL. change (s_n8r z) with n in PL.
  assert (Zl : zlen (encode ex_magic 1 es) = 12 + (12 + 4) + (12 + zlen (zkey_payload z)) + (12 + 4)).
  { unfold encode, es. rewrite !zlen_app, !zlen_le. unfold enc_body. cbn [map concat]. rewrite !zlen_app, !zlen_entry. cbn [snd]. rewrite zlen_le. change (zlen ex_magic) with 4. change (zlen []) with 0. change (zlen [0; 0; 0; 0]) with 4. lia. }
  assert (C : container_ok ex_magic 1 es).
  { unfold container_ok. split; [reflexivity|]. split; [lia|]. split; [unfold es; cbn [length]; lia|]. split; [|rewrite Zl, PL; lia].
    unfold es. repeat constructor; cbn [fst]; lia. }
  assert (F1 : first 1 es (le_bytes 4 1)) by reflexivity. assert (F4 : first 4 es [0; 0; 0; 0]) by reflexivity. assert (F2 : first 2 es (zkey_payload z)) by reflexivity.
  destruct (open_find ex_magic 1 es 1 [] C (Z.le_refl 1)) as (f & E & Hd & _ & Hi & H). rewrite app_nil_r in E, Hd, H.
  destruct (first_find f _ es _ _ H F1) as (o1 & A1 & B1). destruct (first_find f _ es _ _ H F2) as (o2 & A2 & B2). destruct (first_find f _ es _ _ H F4) as (o4 & A4 & B4).
  exists ex_magic, 1, es, z, f. split; [exact C|]. split; [exact W|]. split; [split; [exact F1|split; [exact F2|exists [0; 0; 0; 0]; split; [exact F4|reflexivity]]]|]. split; [exact E|].
  apply (zkey_load_div f z o1 o2 o4 (zlen [0; 0; 0; 0])); rewrite ?Hd; [rewrite Zl, PL; lia|exact Hi|exact A1|exact B1|exact A2|exact B2|exact A4|exact W|reflexivity|reflexivity].
Qed.
Print Assumptions C47_div_refuted.
