(** Property C66: the x86-64 toInt. *)
From Coq Require Import ZArith List Bool Arith Lia.
From Verif Require Import Limbs LimbsFacts Gen GenFacts Spec Fr FrSpec Instances X86 X86Gen X86Call X86T X86TSpec X86TInt X86TFinal7 X86Inst X86TInst.
Import ListNotations.
Open Scope Z_scope.

(** As in PropsX86T.v: [lay] is where the linker puts the data section, [ra] any return
    address of the calls inside the operation, the rest of the machine is arbitrary.  The C
    caller reads the int in the low half of rax.  [xframe D 0 0] says that nothing was written
    but the stack and that the callee-saved registers are kept. *)

(** ** C66 *)
(** An element congruent to an int is returned as that int, whatever Fr_fail does.  The sizes
    excluded are those at which rawFromMontgomery is wrong (C54).  The last condition on [z]
    is that of the comparison of the low limbs alone (line 186); [C66_x86_low_limb_refuted]
    is a modulus at which it fails. *)
Theorem C66_x86_toInt_partial : forall q P, 2 ^ 32 < q -> build q = Some P ->
  let n := p_n64 P in let opt := p_opt P in let D := DI n opt in
  n <> 7%nat -> ~ (n = 6%nat /\ opt = false) ->
  forall lay ra fail m z, 0 <= ra < B -> xready P lay D m -> xoff D m (regs m RDI) (S n) ->
  - 2 ^ 31 <= z < 2 ^ 31 -> - z <= q mod 2 ^ 64 -> xelt q n m (regs m RDI) (z mod q) ->
  exists m', f_toInt lay ra n opt fail m = Some m' /\ sx32 (regs m' RAX) = z /\ xframe D 0 0 m m'.
Proof.
  intros q P H1 H2 n opt D N1 N2 lay ra fail m z Hra Rdy O Hz L0 (s & t & l & F & V). pose proof (build_ok q P ltac:(lia) H2) as OK.
  apply (F_int q P OK lay ra Hra m H1) with (s := s) (t := t) (l := l) (v := z mod q); try assumption; try reflexivity.
  unfold neededFor. subst n opt. destruct (p_opt P); intros E; [apply N1|apply N2; split; [|reflexivity]]; lia.
Qed.
Print Assumptions C66_x86_toInt_partial.

(** Fr_fail is called on a value that is not small and whose distance to q is, modulo 2^64,
    zero or over 2^31: if it stops the program so does toInt, if it returns (assertions
    compiled out) so does toInt, with the stack in order. *)
Theorem C66_x86_toInt_fails_partial : forall q P, 2 ^ 32 < q -> build q = Some P ->
  let n := p_n64 P in let opt := p_opt P in let D := DI n opt in
  n <> 7%nat -> ~ (n = 6%nat /\ opt = false) ->
  forall lay ra m v, 0 <= ra < B -> xready P lay D m -> xoff D m (regs m RDI) (S n) ->
  xelt q n m (regs m RDI) v -> 2 ^ 31 <= v -> ((q - v) mod 2 ^ 64 = 0 \/ 2 ^ 31 < (q - v) mod 2 ^ 64) ->
  f_toInt lay ra n opt fail_stops m = None /\ exists m', f_toInt lay ra n opt fail_returns m = Some m' /\ xframe D 0 0 m m'.
Proof.
  intros q P H1 H2 n opt D N1 N2 lay ra m v Hra Rdy O (s & t & l & F & V) Hv Hr. pose proof (build_ok q P ltac:(lia) H2) as OK.
  assert (N12 : neededFor n opt <> 12%nat) by (unfold neededFor; subst n opt; destruct (p_opt P); intros E; [apply N1|apply N2; split; [|reflexivity]]; lia).
  split; [apply (F_stop q P OK lay ra Hra m H1) with (s := s) (t := t) (l := l) (v := v)|apply (F_fret q P OK lay ra Hra m H1) with (s := s) (t := t) (l := l) (v := v)]; assumption.
Qed.
Print Assumptions C66_x86_toInt_fails_partial.

(** Non-vacuity: a 254-bit modulus and the elements -5 and 2^40 in Montgomery form. *)
Definition iElt v := word_of 5 LONGMONTGOMERY :: to_limbs 4 (v * Rad 4 mod bn_r).
Definition iM v := xmachine bn_P (iElt v) [] [] 2000 3000 3000.
Definition iOk v : Prop := xready bn_P lay1 (DI 4 true) (iM v) /\ xoff (DI 4 true) (iM v) (regs (iM v) RDI) 5 /\ xelt bn_r 4 (iM v) (regs (iM v) RDI) (v mod bn_r).
Lemma iOk_of v : xcheck bn_P (iElt v) [] [] 2000 3000 3000 (DI 4 true) &&
  (xfieldsb 4 (iM v) 2000 5 LONGMONTGOMERY (to_limbs 4 (v * Rad 4 mod bn_r)) && denotesb bn_r 4 5 LONGMONTGOMERY (to_limbs 4 (v * Rad 4 mod bn_r)) (v mod bn_r)) = true -> iOk v.
Proof.
  rewrite !andb_true_iff. intros (H1 & H2 & H3). split; [apply xready_of, H1|]. split; [apply xoffb_ok; vm_compute; reflexivity|]. exists 5, LONGMONTGOMERY, (to_limbs 4 (v * Rad 4 mod bn_r)). split; [apply xfields_of, H2|apply denotes_of, H3].
Qed.
Example C66_hyp : 2 ^ 32 < bn_r /\ build bn_r = Some bn_P /\ p_n64 bn_P = 4%nat /\ p_opt bn_P = true /\ 2 ^ 31 <= bn_r mod 2 ^ 64 /\ iOk (-5) /\ iOk (2 ^ 40) /\ 2 ^ 31 < (bn_r - 2 ^ 40) mod 2 ^ 64.
Proof.
  split; [reflexivity|]. split; [exact bn_build|]. split; [reflexivity|]. split; [reflexivity|]. split; [apply Z.leb_le; vm_compute; reflexivity|]. split; [apply iOk_of; vm_compute; reflexivity|]. split; [apply iOk_of; vm_compute; reflexivity|]. apply Z.ltb_lt; vm_compute; reflexivity.
Qed.
(** One limb: short, plain and Montgomery elements; the failures stop or return. *)
Definition ig (a : list Z) := xmachine gold_P a [] [] 2000 3000 3000.
Definition igo (fail : mach -> option mach) (a : list Z) := option_map (fun m => (sx32 (regs m RAX), regs m RSP, regs m RDI, regs m RSI, regs m RBX)) (f_toInt lay1 777 1 (p_opt gold_P) fail (ig a)).
Example C66_run : igo fail_stops [word_of (-7) SHORT; 4] = Some (-7, 80008, 2000, 3000, 77) /\
  igo fail_stops [word_of 9 LONG; 2 ^ 31 - 1] = Some (2 ^ 31 - 1, 80008, 2000, 3000, 77) /\
  igo fail_stops [word_of 9 LONG; gold_q - 1] = Some (-1, 80008, 2000, 3000, 77) /\
  option_map (fun x => fst (fst (fst (fst x)))) (igo fail_stops [word_of 9 LONGMONTGOMERY; (gold_q - 2 ^ 31) * Rad 1 mod gold_q]) = Some (- 2 ^ 31) /\
  igo fail_stops [word_of 9 LONG; 2 ^ 31] = None /\ igo fail_returns [word_of 9 LONG; 2 ^ 31] = Some (2 ^ 31 - 1, 80008, 2000, 3000, 77).
Proof. vm_compute. repeat split; reflexivity. Qed.

(** FINDING.  With two limbs or more toInt returns an int for elements that are not congruent
    to it: of the difference to q only the sign of each partial subtraction is tested, not
    that the limbs above the first are all ones (lines 187-191).  Here q - 2^64 - 5 gives -5. *)
Definition iW := xmachine bn_P (word_of 5 LONG :: to_limbs 4 (bn_r - 2 ^ 64 - 5)) [] [] 2000 3000 3000.
Theorem C66_x86_wrong_int_refuted : exists q P lay ra m v m', 2 ^ 32 < q /\ build q = Some P /\ p_n64 P = 4%nat /\ xready P lay (DI (p_n64 P) (p_opt P)) m /\ xoff (DI (p_n64 P) (p_opt P)) m (regs m RDI) (S (p_n64 P)) /\ xelt q (p_n64 P) m (regs m RDI) v /\
  f_toInt lay ra (p_n64 P) (p_opt P) fail_stops m = Some m' /\ sx32 (regs m' RAX) = -5 /\ v <> -5 mod q.
Proof.
  assert (E : option_map (fun m => sx32 (regs m RAX)) (f_toInt lay1 777 4 (p_opt bn_P) fail_stops iW) = Some (-5)) by (vm_compute; reflexivity).
  destruct (f_toInt lay1 777 4 (p_opt bn_P) fail_stops iW) as [m'|] eqn:E1; [|discriminate]. injection E as E.
  exists bn_r, bn_P, lay1, 777, iW, (bn_r - 2 ^ 64 - 5), m'. split; [reflexivity|]. split; [exact bn_build|]. split; [reflexivity|]. split; [apply xready_of; vm_compute; reflexivity|]. split; [apply xoffb_ok; vm_compute; reflexivity|].
  split; [exists 5, LONG, (to_limbs 4 (bn_r - 2 ^ 64 - 5)); split; [apply xfields_of|apply denotes_of]; vm_compute; reflexivity|]. split; [exact E1|]. split; [exact E|]. vm_compute. discriminate.
Qed.
Print Assumptions C66_x86_wrong_int_refuted.

(** FINDING.  When the low limb of q is small, toInt fails on negative ints: subtracting
    q from q - 2 does not borrow in the low limb (line 186).  The modulus is the prime
    2^251 + 17 * 2^192 + 1. *)
Definition st_q : Z := 2 ^ 251 + 17 * 2 ^ 192 + 1.
Definition st_P : zq := Eval vm_compute in match build st_q with Some P => P | None => gold_P end.
Definition iS := xmachine st_P (word_of 5 LONG :: to_limbs 4 (st_q - 2)) [] [] 2000 3000 3000.
Theorem C66_x86_low_limb_refuted : exists q P lay ra m, 2 ^ 32 < q /\ build q = Some P /\ p_n64 P = 4%nat /\ xready P lay (DI (p_n64 P) (p_opt P)) m /\ xoff (DI (p_n64 P) (p_opt P)) m (regs m RDI) (S (p_n64 P)) /\ xelt q (p_n64 P) m (regs m RDI) (-2 mod q) /\
  f_toInt lay ra (p_n64 P) (p_opt P) fail_stops m = None.
Proof.
  exists st_q, st_P, lay1, 777, iS. split; [reflexivity|]. split; [vm_compute; reflexivity|]. split; [reflexivity|]. split; [apply xready_of; vm_compute; reflexivity|]. split; [apply xoffb_ok; vm_compute; reflexivity|].
  split; [exists 5, LONG, (to_limbs 4 (st_q - 2)); split; [apply xfields_of|apply denotes_of]; vm_compute; reflexivity|]. vm_compute. reflexivity.
Qed.
Print Assumptions C66_x86_low_limb_refuted.
