(** Proofs about BinFile: call sequences, malformed files, headers. *)
From Coq Require Import ZArith List Bool Lia.
From Verif Require Import Bytes BytesFacts Multiexp BinFile BinFileFacts.
Import ListNotations.
Open Scope Z_scope.

(** ** calls of the reader *)
Inductive call := Start (id k : Z) | End (check : bool) | U32 | U64 | Rd (len : Z).
(** what a call returns: a number of k bytes, or an address with the length asked for *)
Inductive obs := Done | Num (k : nat) (v : Z) | Ptr (p len : Z).
Definition exec (f : bin) (c : call) : res (obs * bin) :=
  match c with
  | Start id k => let* f := startReadSection f id k in Ok (Done, f)
  | End check => let* f := endReadSection f check in Ok (Done, f)
  | U32 => let* (v, f) := readU32LE f in Ok (Num 4 v, f)
  | U64 => let* (v, f) := readU64LE f in Ok (Num 8 v, f)
  | Rd len => let '(p, f) := read f len in Ok (Ptr p len, f)
  end.
(** a sequence of calls; an exception is caught and leaves the object as it was
    (startReadSection and endReadSection change nothing before they throw) *)
Fixpoint runs (f : bin) (cs : list call) : option (list (call * bool) * list obs * bin) :=
  match cs with
  | [] => Some ([], [], f)
  | c :: cs =>
    match exec f c with
    | Ok (o, f) => match runs f cs with Some (l, os, f) => Some ((c, true) :: l, o :: os, f) | None => None end
    | Throw => match runs f cs with Some (l, os, f) => Some ((c, false) :: l, os, f) | None => None end
    | _ => None
    end
  end.

(** ** the rule of the protocol, over what the client sees: [cur] is the section
    that was started and not ended, with the number of bytes read since *)
Definition next (cur : option (Z * Z * Z)) (c : call) (ok : bool) : option (Z * Z * Z) :=
  let adv n := match cur with Some (id, k, m) => Some (id, k, m + n) | None => None end in
  if negb ok then cur else
  match c with Start id k => Some (id, k, 0) | End _ => None | U32 => adv 4 | U64 => adv 8 | Rd n => adv n end.
Fixpoint legal (size : Z -> Z -> option Z) (cur : option (Z * Z * Z)) (log : list (call * bool)) : Prop :=
  match log with
  | [] => True
  | (c, ok) :: log =>
    match c with
    | Start id k => ok = true <-> (size id k <> None /\ cur = None)
    | End true => exists id k n, cur = Some (id, k, n) /\ (ok = true <-> size id k = Some (n mod 2 ^ 64))
    | _ => ok = true
    end /\ legal size (next cur c ok) log
  end.
Fixpoint after (cur : option (Z * Z * Z)) (log : list (call * bool)) : option (Z * Z * Z) :=
  match log with [] => cur | (c, ok) :: log => after (next cur c ok) log end.
Definition size_of (f : bin) (id k : Z) : option Z := match getSectionSize f id k with Ok n => Some n | _ => None end.

Definition tracks (f : bin) (cur : option (Z * Z * Z)) : Prop :=
  match cur, reading f with
  | None, None => True
  | Some (id, k, n), Some s => find_section f id k = Ok s /\ (pos f - fst s) mod 2 ^ 64 = n mod 2 ^ 64
  | _, _ => False
  end.
Lemma runs_legal cs : forall f cur l os f', tracks f cur -> runs f cs = Some (l, os, f') ->
  map fst l = cs /\ legal (size_of f) cur l /\ tracks f' (after cur l) /\ sections f' = sections f /\ data f' = data f.
Proof.
  assert (K : forall f f', sections f' = sections f -> forall cur l, legal (size_of f') cur l -> legal (size_of f) cur l).
  { intros f f' E cur l. assert (S : forall i k, size_of f' i k = size_of f i k) by (intros; unfold size_of, getSectionSize, find_section; rewrite E; reflexivity).
    revert cur. induction l as [|[c ok] l IH]; intros cur H; [exact I|]. cbn [legal] in *. destruct H as [H1 H2]. split; [|apply IH, H2].
    destruct c as [i k|[|]| | |]; try exact H1; [rewrite <- S; exact H1|]. destruct H1 as (i & k & n & A & B). exists i, k, n. rewrite <- S. split; assumption. }
  assert (Q : forall f p cur n, tracks f cur -> p mod 2 ^ 64 = (pos f + n) mod 2 ^ 64 -> tracks (setpos f p) (match cur with Some (id, k, m) => Some (id, k, m + n) | None => None end)).
  { intros f p cur n T E. unfold tracks in *. cbn [reading setpos pos]. destruct cur as [[[i k] m]|], (reading f) as [s|]; try exact T.
    destruct T as [T1 T2]. split; [exact T1|]. rewrite Zminus_mod, E, <- Zminus_mod. replace (pos f + n - fst s) with (pos f - fst s + n) by lia. rewrite Zplus_mod, T2, <- Zplus_mod. reflexivity. }
  assert (Step : forall f c o f1 cur, tracks f cur -> exec f c = Ok (o, f1) -> tracks f1 (next cur c true) /\ sections f1 = sections f /\ data f1 = data f /\
     match c with Start id k => size_of f id k <> None /\ cur = None | End true => exists id k n, cur = Some (id, k, n) /\ size_of f id k = Some (n mod 2 ^ 64) | _ => True end).
  { intros f c o f1 cur T H. destruct c as [i k|ch| | |n]; cbn [exec] in H.
    - unfold startReadSection in H. destruct (find_section f i k) as [s| | |] eqn:F; try discriminate H. cbn [rbind] in H. destruct (reading f) eqn:R; [discriminate H|]. injection H as _ <-.
      split; [cbn; split; [exact F|]; rewrite Z.sub_diag; reflexivity|]. split; [reflexivity|]. split; [reflexivity|]. unfold tracks in T. rewrite R in T.
      split; [unfold size_of, getSectionSize; rewrite F; discriminate|]. destruct cur as [[[? ?] ?]|]; [destruct T|reflexivity].
    - unfold endReadSection in H. destruct ch.
      + unfold tracks in T. destruct (reading f) as [[s z]|]; [|discriminate H]. destruct (w64 (pos f - s) =? z) eqn:W; [|discriminate H]. cbn in H. injection H as _ <-.
        destruct cur as [[[i k] n]|]; [|destruct T]. split; [exact I|]. split; [reflexivity|]. split; [reflexivity|]. exists i, k, n. split; [reflexivity|].
        destruct T as [T1 T2]. unfold size_of, getSectionSize. rewrite T1. cbn [rbind fst snd] in *. apply Z.eqb_eq in W. unfold w64 in W. congruence.
      + cbn in H. injection H as _ <-. split; [exact I|]. split; [reflexivity|]. split; [reflexivity|exact I].
    - unfold readU32LE, readLE, get_le in H. destruct (fetch (data f) (pos f) 4); try discriminate H. cbn [rbind] in H. injection H as _ <-.
      split; [|split; [reflexivity|split; [reflexivity|exact I]]]. apply Q; [exact T|]. unfold w64. apply Zmod_mod.
    - unfold readU64LE, readLE, get_le in H. destruct (fetch (data f) (pos f) 8); try discriminate H. cbn [rbind] in H. injection H as _ <-.
      split; [|split; [reflexivity|split; [reflexivity|exact I]]]. apply Q; [exact T|]. unfold w64. apply Zmod_mod.
    - injection H as _ <-. split; [|split; [reflexivity|split; [reflexivity|exact I]]]. apply Q; [exact T|]. unfold w64. apply Zmod_mod. }
  assert (Fail : forall f c cur, tracks f cur -> exec f c = Throw -> 
     match c with Start id k => ~ (size_of f id k <> None /\ cur = None) | End true => exists id k n, cur = Some (id, k, n) /\ size_of f id k <> Some (n mod 2 ^ 64) | _ => False end).
  { intros f c cur T H. destruct c as [i k|ch| | |n]; cbn [exec] in H.
    - intros [S C]. unfold startReadSection in H. unfold size_of, getSectionSize in S. destruct (find_section f i k) as [s| | |] eqn:F; try discriminate H; [|apply S; reflexivity].
      cbn [rbind] in H. subst cur. unfold tracks in T. destruct (reading f); [destruct T|discriminate H].
    - unfold endReadSection in H. destruct ch; [|discriminate H]. unfold tracks in T. destruct (reading f) as [[s z]|]; [|discriminate H].
      destruct (w64 (pos f - s) =? z) eqn:W; [discriminate H|]. destruct cur as [[[i k] n]|]; [|destruct T]. exists i, k, n. split; [reflexivity|].
      destruct T as [T1 T2]. unfold size_of, getSectionSize. rewrite T1. cbn [rbind fst snd] in *. apply Z.eqb_neq in W. unfold w64 in W. congruence.
    - unfold readU32LE, readLE, get_le, fetch in H. destruct (_ <=? _) in H; discriminate H.
    - unfold readU64LE, readLE, get_le, fetch in H. destruct (_ <=? _) in H; discriminate H.
    - discriminate H. }
  induction cs as [|c cs IH]; intros f cur l os f' T H; cbn [runs] in H.
  - injection H as <- _ <-. cbn. auto.
  - destruct (exec f c) as [[o f1]| | |] eqn:E; try discriminate H.
    + destruct (runs f1 cs) as [[[l1 os1] f2]|] eqn:R; [|discriminate H]. injection H as <- _ <-.
      destruct (Step f c o f1 cur T E) as (T1 & S1 & D1 & C1). destruct (IH f1 _ _ _ _ T1 R) as (M & L & T2 & S2 & D2).
      cbn [map fst legal after]. split; [rewrite M; reflexivity|]. split; [|split; [exact T2|split; congruence]]. split; [|eapply K; eassumption].
      destruct c as [i k|[|]| | |]; try reflexivity; [split; auto|]. destruct C1 as (i & k & n & A & B). exists i, k, n. split; [exact A|]. split; auto.
    + destruct (runs f cs) as [[[l1 os1] f2]|] eqn:R; [|discriminate H]. injection H as <- _ <-.
      pose proof (Fail f c cur T E) as C1. destruct (IH f cur _ _ _ T R) as (M & L & T2 & S2 & D2).
      cbn [map fst legal after]. split; [rewrite M; reflexivity|]. split; [|split; [exact T2|split; congruence]]. split; [|exact L].
      destruct c as [i k|[|]| | |]; [|destruct C1 as (i & k & n & A & B)|destruct C1|destruct C1|destruct C1|destruct C1].
      * split; [discriminate|]. intros A. destruct (C1 A).
      * exists i, k, n. split; [exact A|]. split; [discriminate|]. intros X. destruct (B X).
Qed.

(** ** reading a payload *)
Definition is_read (c : call) : Prop := match c with U32 | U64 => True | Rd n => 0 <= n | _ => False end.
Definition read_len (c : call) : Z := match c with U32 => 4 | U64 => 8 | Rd n => n | _ => 0 end.
Definition total (cs : list call) : Z := fold_right Z.add 0 (map read_len cs).
(** the bytes a client obtains from what a call returned *)
Definition seen (d : list Z) (o : obs) : list Z := match o with Done => [] | Num k v => le_bytes k v | Ptr p len => sub d p len end.

Lemma skipn_skipn' {A} (l : list A) : forall a b, skipn a (skipn b l) = skipn (b + a) l.
Proof. induction l as [|x l IH]; intros a [|b]; cbn; try reflexivity; [apply skipn_nil|apply IH]. Qed.
Lemma firstn_app_skip {A} (l : list A) : forall a b, firstn a l ++ firstn b (skipn a l) = firstn (a + b) l.
Proof. induction l as [|x l IH]; intros [|a] b; cbn; try reflexivity; [apply firstn_nil|]. f_equal. apply IH. Qed.
Lemma sub_cat d p a b : 0 <= p -> 0 <= a -> 0 <= b -> sub d p a ++ sub d (p + a) b = sub d p (a + b).
Proof.
  intros. unfold sub. rewrite (Z2Nat.inj_add p a), (Z2Nat.inj_add a b), <- skipn_skipn' by assumption. apply firstn_app_skip.
Qed.
Lemma sub_len d p n : 0 <= p -> 0 <= n -> p + n <= zlen d -> length (sub d p n) = Z.to_nat n.
Proof. intros. unfold sub, zlen in *. rewrite firstn_length, skipn_length. lia. Qed.
Lemma Forall_firstn' {A} (P : A -> Prop) l : forall n, Forall P l -> Forall P (firstn n l).
Proof. induction l as [|x l IH]; intros [|n] H; cbn; try constructor; inversion H; auto. Qed.
Lemma Forall_skipn' {A} (P : A -> Prop) l : forall n, Forall P l -> Forall P (skipn n l).
Proof. induction l as [|x l IH]; intros [|n] H; cbn; auto. inversion H; auto. Qed.
Lemma sub_ok d p n : bytes_ok d -> bytes_ok (sub d p n).
Proof. intros H. unfold sub. apply Forall_firstn', Forall_skipn', H. Qed.
Lemma total_nonneg cs : Forall is_read cs -> 0 <= total cs.
Proof.
  intros H. induction H as [|c cs H F IH]; [cbn; lia|]. unfold total in *. cbn [map fold_right].
  assert (0 <= read_len c) by (destruct c; cbn in *; lia). lia.
Qed.
Lemma readLE_bytes k f : bytes_ok (data f) -> 0 <= pos f -> pos f + Z.of_nat k <= zlen (data f) -> zlen (data f) < 2 ^ 64 ->
  exists v, readLE (Z.of_nat k) f = Ok (v, setpos f (pos f + Z.of_nat k)) /\ le_bytes k v = sub (data f) (pos f) (Z.of_nat k).
Proof.
  intros Hb Hp Hl Hd. unfold readLE, get_le, fetch. replace (pos f + Z.of_nat k <=? zlen (data f)) with true by (symmetry; apply Z.leb_le; lia). cbn [rbind].
  rewrite w64_id by lia. eexists. split; [reflexivity|].
  pose proof (le_bytes_val _ (sub_ok (data f) (pos f) (Z.of_nat k) Hb)) as E. rewrite sub_len in E by lia. rewrite Nat2Z.id in E. exact E.
Qed.
Lemma reads_ok cs : forall f, bytes_ok (data f) -> zlen (data f) < 2 ^ 64 -> Forall is_read cs -> 0 <= pos f -> pos f + total cs <= zlen (data f) ->
  exists os, runs f cs = Some (map (fun c => (c, true)) cs, os, setpos f (pos f + total cs)) /\ concat (map (seen (data f)) os) = sub (data f) (pos f) (total cs).
Proof.
  induction cs as [|c cs IH]; intros f Hb Hd Hr Hp Hl.
  - exists []. unfold total, sub. cbn. rewrite Z.add_0_r. destruct f; split; reflexivity.
  - inversion Hr as [|? ? H1 H2]; subst. pose proof (total_nonneg cs H2) as Ht.
    assert (Hc : 0 <= read_len c) by (destruct c; cbn in *; lia).
    assert (Ht' : total (c :: cs) = read_len c + total cs) by reflexivity. rewrite Ht' in *.
    assert (X : exists o, exec f c = Ok (o, setpos f (pos f + read_len c)) /\ seen (data f) o = sub (data f) (pos f) (read_len c)).
    { destruct c as [i k|ch| | |len]; [destruct H1|destruct H1| | |]; cbn [exec read_len is_read] in *.
      - destruct (readLE_bytes 4 f) as (v & E & S); try assumption; [change (Z.of_nat 4) with 4; lia|]. unfold readU32LE. change 4 with (Z.of_nat 4). rewrite E. cbn [rbind]. eexists. split; [reflexivity|exact S].
      - destruct (readLE_bytes 8 f) as (v & E & S); try assumption; [change (Z.of_nat 8) with 8; lia|]. unfold readU64LE. change 8 with (Z.of_nat 8). rewrite E. cbn [rbind]. eexists. split; [reflexivity|exact S].
      - exists (Ptr (pos f) len). split; [|reflexivity]. unfold read. cbv beta iota. rewrite (w64_id (pos f + len)) by lia. reflexivity. }
    destruct X as (o & E & S). destruct (IH (setpos f (pos f + read_len c))) as (os & R & Q); try assumption; cbn [setpos data pos] in *; try lia.
    exists (o :: os). cbn [runs]. rewrite E, R. cbn [map concat]. rewrite S, Q. rewrite sub_cat by lia. split; [|reflexivity].
    unfold setpos. cbn. rewrite Z.add_assoc. reflexivity.
Qed.
