(** Concrete machines for the tagged x86-64 operations. *)
From Coq Require Import ZArith List Bool Arith Lia.
From Verif Require Import Limbs LimbsFacts Gen GenFacts Spec Fr FrSpec Instances X86 X86Call X86Inst X86T X86TSpec.
Import ListNotations.
Open Scope Z_scope.

Definition lay1 (s : sym) : Z := match s with Sq => 1000 | Snp => 1200 | Shalf => 1304 | SR2 => 1400 | SR3 => 1504 | SlboMask => 1600 end.
Definition syms : list sym := [Sq; Snp; Shalf; SR2; SR3; SlboMask].
(** elements at 2000, 3000 and the destination 4000; stack pointer 80000 *)
Definition xmachine (P : zq) (a b r : list Z) (rdi rsi rdx : Z) : mach :=
  {| regs := fun r => match r with RSP => 80000 | RDI => rdi | RSI => rsi | RDX => rdx | RBX => 77 | _ => 12345 end;
     fl := {| cf := true; ovf := true; zf := false |};
     mem := put (put (put (fold_left (fun f s => put f (lay1 s) (data P s)) syms (fun _ => 999)) 2000 a) 3000 b) 4000 r |}.
Definition in_B (x : Z) : bool := (0 <=? x) && (x <? B).
Definition at_addrb (m : mach) (p : Z) (l : list Z) : bool :=
  (0 <=? p) && (p mod 8 =? 0) && (p + 8 * Z.of_nat (length l) <=? B) && forallb (fun j => mem m (p + 8 * Z.of_nat j) =? nth j l 0) (seq 0 (length l)).
Lemma at_addrb_ok m p l : at_addrb m p l = true -> at_addr m p l.
Proof.
  unfold at_addrb. rewrite !andb_true_iff. intros [[[H1 H2] H3] H4]. apply Z.leb_le in H1. apply Z.eqb_eq in H2. apply Z.leb_le in H3. split; [exact H1|]. split; [exact H2|]. split; [exact H3|].
  intros j Hj. rewrite forallb_forall in H4. apply Z.eqb_eq, H4, in_seq. lia.
Qed.
Lemma in_B_ok l : forallb in_B l = true -> Forall (fun x => 0 <= x < B) l.
Proof. intros H. apply Forall_forall. intros x Hx. rewrite forallb_forall in H. specialize (H x Hx). unfold in_B in H. lia. Qed.
Definition xoffb (D : Z) (m : mach) (p : Z) (k : nat) : bool := p + 8 * Z.of_nat k <=? regs m RSP - D.
Lemma xoffb_ok D m p k : xoffb D m p k = true -> xoff D m p k.
Proof. intros H. left. apply Z.leb_le, H. Qed.
Section M.
Variable P : zq.
Variables a b r : list Z.
Variables rdi rsi rdx : Z.
Notation m := (xmachine P a b r rdi rsi rdx).
Definition xcheck (D : Z) : bool :=
  forallb in_B [rdi; rsi; rdx] && forallb in_B a && forallb in_B b && forallb in_B r && forallb (fun s => forallb in_B (data P s) && at_addrb m (lay1 s) (data P s) && xoffb D m (lay1 s) (length (data P s))) syms && (D <=? 80000).
Lemma syms_all s : In s syms. Proof. destruct s; cbn; tauto. Qed.
Lemma xready_of D : xcheck D = true -> xready P lay1 D m.
Proof.
  unfold xcheck. rewrite !andb_true_iff. intros [[[[[H1 H2] H3] H4] H5] H6]. rewrite forallb_forall in H5. apply in_B_ok in H1, H2, H3, H4.
  assert (H5' : forall s, forallb in_B (data P s) && at_addrb m (lay1 s) (data P s) && xoffb D m (lay1 s) (length (data P s)) = true) by (intros s; apply H5, syms_all).
  split.
  - split.
    + inversion H1 as [|? ? R1 H1']; subst. inversion H1' as [|? ? R2 H1'']; subst. inversion H1'' as [|? ? R3 _]; subst. intros r0; destruct r0; cbn [xmachine regs]; try assumption; split; (discriminate || reflexivity).
    + intros x. cbn [xmachine mem]. do 3 (apply put_range; [|assumption]). unfold syms. cbn [fold_left].
      repeat (apply put_range; [|match goal with |- Forall _ (data P ?s) => pose proof (H5' s) as Hs; apply andb_true_iff in Hs as [Hs _]; apply andb_true_iff in Hs as [Hs _]; apply in_B_ok, Hs end]). intros y. split; [discriminate|reflexivity].
  - reflexivity.
  - apply Z.leb_le, H6.
  - intros s. specialize (H5' s). rewrite !andb_true_iff in H5'. destruct H5' as [[_ A] O]. split; [apply at_addrb_ok, A|apply xoffb_ok, O].
Qed.
End M.
Definition xdestb (P : zq) (D : Z) (m : mach) (p : Z) : bool :=
  (0 <=? p) && (p mod 8 =? 0) && (p + 8 * Z.of_nat (S (p_n64 P)) <=? B) && xoffb D m p (S (p_n64 P)) && forallb (fun s => lay1 s + 8 * Z.of_nat (length (data P s)) <=? p) syms.
Lemma xdest_of P D m p : xdestb P D m p = true -> xdest P lay1 D m p.
Proof.
  unfold xdestb. rewrite !andb_true_iff. intros [[[[H1 H2] H3] H4] H5]. rewrite forallb_forall in H5. split; [apply Z.leb_le, H1|apply Z.eqb_eq, H2|apply Z.leb_le, H3|apply xoffb_ok, H4|]. intros s. left. apply Z.leb_le, H5, syms_all.
Qed.
Definition int32b (s : Z) : bool := (- 2 ^ 31 <=? s) && (s <? 2 ^ 31).
Definition xfieldsb (n : nat) (m : mach) (p s t : Z) (l : list Z) : bool := int32b s && limbs_okb n l && at_addrb m p (word_of s t :: l).
Lemma xfields_of n m p s t l : xfieldsb n m p s t l = true -> xfields n m p s t l.
Proof. unfold xfieldsb. rewrite !andb_true_iff. intros [[H1 H2] H3]. split; [unfold int32b in H1; unfold is_int32; lia|]. split; [apply limbs_okb_ok, H2|apply at_addrb_ok, H3]. Qed.
Definition denotesb (q : Z) (n : nat) (s t : Z) (l : list Z) (v : Z) : bool :=
  (0 <=? v) && (v <? q) && limbs_okb n l &&
  ((t =? SHORT) && int32b s && (v =? s mod q) || (t =? SHORTMONTGOMERY) && int32b s && (v =? s mod q) && (eval l =? (v * Rad n) mod q) ||
   (t =? LONG) && (eval l =? v) || (t =? LONGMONTGOMERY) && (eval l =? (v * Rad n) mod q)).
Lemma denotes_of q n s t l v : denotesb q n s t l v = true -> denotes q n s t l v.
Proof.
  unfold denotesb. rewrite !andb_true_iff, !orb_true_iff, !andb_true_iff, !Z.eqb_eq. unfold int32b. intros [[[H1 H2] H3] H4]. split; [lia|]. split; [apply limbs_okb_ok, H3|]. unfold is_int32.
  destruct H4 as [[[[[H4 H5] H6] | [[[H4 H5] H6] H7]] | [H4 H5]] | [H4 H5]]; [left|right; left|right; right; left|right; right; right]; repeat split; (lia || assumption).
Qed.
(** an operand at [p], apart from or equal to the destination *)
Lemma xarg_of q n D m pr p v s t l : xfieldsb n m p s t l && denotesb q n s t l v && xoffb D m p (S n) && ((p =? pr) || (p + 8 * Z.of_nat (S n) <=? pr) || (pr + 8 * Z.of_nat (S n) <=? p)) = true -> xarg q n D m pr p v.
Proof.
  rewrite !andb_true_iff, !orb_true_iff. intros [[[H1 H2] H3] H4]. split; [exists s, t, l; split; [apply xfields_of, H1|apply denotes_of, H2]|]. split; [apply xoffb_ok, H3|]. unfold xapart. lia.
Qed.
(** the element read back: shortVal, type, limbs, and the registers a caller relies on *)
Definition readElt (n : nat) (p : Z) (o : option mach) : option (Z * Z * list Z * Z * Z) :=
  option_map (fun m => (sx32 (mem m p), mem m p / W32, map (fun j => mem m (p + 8 + 8 * Z.of_nat j)) (seq 0 n), regs m RSP, regs m RBX)) o.
Lemma read_inv n p o s t l sp bx : readElt n p o = Some (s, t, l, sp, bx) -> exists m', o = Some m' /\ mem m' p / W32 = t /\ map (fun j => mem m' (p + 8 + 8 * Z.of_nat j)) (seq 0 n) = l.
Proof. destruct o as [m'|]; [|discriminate]. cbn [readElt option_map]. intros E. injection E as _ E2 E3 _ _. exists m'. auto. Qed.
(** a long element that does not have the value [v] *)
Lemma not_xelt q m p v t x : mem m p / W32 = t -> mem m (p + 8) = x -> (t = LONG /\ x <> v \/ t = LONGMONTGOMERY /\ x <> (v * Rad 1) mod q) -> ~ xelt q 1 m p v.
Proof.
  intros H1 H2 H3 (s & t' & l & (_ & LO & A) & V). assert (T : t' = t).
  { rewrite <- H1. destruct A as (_ & _ & _ & A). specialize (A 0%nat ltac:(cbn; lia)). cbn [nth Z.of_nat] in A. rewrite Z.mul_0_r, Z.add_0_r in A. rewrite A. unfold word_of. rewrite Z.div_add by discriminate. rewrite Z.div_small by (apply Z.mod_pos_bound; reflexivity). reflexivity. }
  subst t'. destruct l as [|y [|z l]]; [destruct LO; discriminate| |destruct LO; discriminate].
  assert (Y : x = y). { rewrite <- H2. destruct A as (_ & _ & _ & A). specialize (A 1%nat ltac:(cbn; lia)). cbn [nth] in A. exact A. } subst y. clear H1 H2.
  destruct V as (_ & _ & V). assert (EV : eval [x] = x) by (cbn; lia). rewrite EV in V. destruct H3 as [[-> H3] | [-> H3]]; destruct V as [[V _] | [[V _] | [[V V2] | [V V2]]]]; try discriminate V; contradiction.
Qed.
