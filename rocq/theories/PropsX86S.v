(** Property C64: the x86-64 raw shifts. *)
From Coq Require Import ZArith List Bool Arith Lia.
From Verif Require Import Limbs LimbsFacts Gen GenFacts Raw Spec Fr FrSpec FrFacts3 Instances X86 X86Gen X86Sim X86Call X86Routines X86Raw X86RawFacts X86RawFacts3 X86T X86TSpec X86TRawShift X86TFinal5 X86Inst X86TInst.
Import ListNotations.
Open Scope Z_scope.

(** ** C64 *)
(** [rdi] is the destination, [rsi] the operand (the destination or disjoint from it), [rdx]
    the whole 64-bit count.  [stored]: the limbs are at the destination, nothing else in
    memory has changed, the registers but the listed ones are kept and the stack pointer is
    past the return address.  The count is compared with a 32-bit immediate, so the modulus
    must have fewer than 2^31 bits. *)
Theorem C64_x86_rawShr : forall q P, 1 < q -> build q = Some P -> let n := p_n64 P in bitlen q < 2 ^ 31 ->
  forall lay ra m a, words m -> X86RawFacts.ptr (regs m RDI) n -> (forall j, (j < n)%nat -> regs m RSP <> regs m RDI + 8 * Z.of_nat j) ->
  limbs_ok n a -> at_addr m (regs m RSI) a -> same_or_apart n (regs m RSI) (regs m RDI) ->
  exists m' l, f_rawShr lay ra n (p_bits P) m = Some m' /\ stored [RAX; RCX; RDX; R8; R9; R10; R11] (regs m RDI) l m m' /\ limbs_ok n l /\
    eval l = if regs m RDX <? bitlen q then eval a / 2 ^ regs m RDX else 0.
Proof.
  intros q P H1 H2 n Hb lay ra m a W Pd R La Aa SA. pose proof (build_ok q P H1 H2) as OK. rewrite <- (bits_eq q P OK) in *.
  destruct (F_rawShr q P OK lay ra m Hb W Pd R a La Aa SA) as (m' & l & E & L & V & S). exists m', l. auto.
Qed.
Print Assumptions C64_x86_rawShr.

(** An operand which is not reduced is left as it is by a shift of 0; any other shift reduces. *)
Theorem C64_x86_rawShl : forall q P, 1 < q -> build q = Some P -> let n := p_n64 P in bitlen q < 2 ^ 31 ->
  forall lay ra m a, words m -> X86RawFacts.ptr (regs m RDI) n -> (forall j, (j < n)%nat -> regs m RSP <> regs m RDI + 8 * Z.of_nat j) ->
  limbs_ok n a -> at_addr m (regs m RSI) a -> same_or_apart n (regs m RSI) (regs m RDI) ->
  at_addr m (lay Sq) (p_q P) -> apart n (lay Sq) (regs m RDI) ->
  at_addr m (lay SlboMask) [p_lbo P] -> (forall j, (j < n)%nat -> lay SlboMask <> regs m RDI + 8 * Z.of_nat j) ->
  (regs m RDX = 0 -> eval a < q) ->
  exists m' l, f_rawShl lay ra n (p_bits P) m = Some m' /\ stored [RAX; RCX; RDX; R8; R9; R10; R11] (regs m RDI) l m m' /\ limbs_ok n l /\
    eval l = if regs m RDX <? bitlen q then ((eval a * 2 ^ regs m RDX) mod 2 ^ bitlen q) mod q else 0.
Proof.
  intros q P H1 H2 n Hb lay ra m a W Pd R La Aa SA Aq Dq Al Dl H0. pose proof (build_ok q P H1 H2) as OK. rewrite <- (bits_eq q P OK) in *.
  destruct (F_rawShl q P OK lay ra m Hb W Pd R a La Aa SA Aq Dq Al Dl H0) as (m' & l & E & L & V & S). exists m', l. auto.
Qed.
Print Assumptions C64_x86_rawShl.

(** Non-vacuity: a 254-bit modulus, its own q - 5 shifted in place by 70. *)
Definition sa := to_limbs 4 (bn_r - 5).
Definition sM (rdi k : Z) := xmachine bn_P sa [] [] rdi 2000 k.
Example C64_hyp : let m := sM 2000 70 in 1 < bn_r /\ build bn_r = Some bn_P /\ p_n64 bn_P = 4%nat /\ bitlen bn_r = 254 /\
  words m /\ X86RawFacts.ptr (regs m RDI) 4 /\ (forall j, (j < 4)%nat -> regs m RSP <> regs m RDI + 8 * Z.of_nat j) /\
  limbs_ok 4 sa /\ at_addr m (regs m RSI) sa /\ same_or_apart 4 (regs m RSI) (regs m RDI) /\
  at_addr m (lay1 Sq) (p_q bn_P) /\ apart 4 (lay1 Sq) (regs m RDI) /\ at_addr m (lay1 SlboMask) [p_lbo bn_P] /\
  (forall j, (j < 4)%nat -> lay1 SlboMask <> regs m RDI + 8 * Z.of_nat j).
Proof.
  split; [reflexivity|]. split; [exact bn_build|]. split; [reflexivity|]. split; [vm_compute; reflexivity|].
  split; [apply (xr_words bn_P lay1 0), (xready_of bn_P sa [] [] 2000 2000 70); vm_compute; reflexivity|].
  split; [split; [discriminate|split; [reflexivity|discriminate]]|]. split; [intros j Hj; cbn [sM xmachine regs]; lia|].
  split; [apply limbs_okb_ok; vm_compute; reflexivity|]. split; [apply at_addrb_ok; vm_compute; reflexivity|]. split; [left; reflexivity|].
  split; [apply at_addrb_ok; vm_compute; reflexivity|]. split; [left; discriminate|]. split; [apply at_addrb_ok; vm_compute; reflexivity|].
  intros j Hj. cbn [sM xmachine regs lay1]. lia.
Qed.
Definition limbsAt (n : nat) (p : Z) (o : option mach) : option (list Z) := option_map (fun m => map (fun j => mem m (p + 8 * Z.of_nat j)) (seq 0 n)) o.
(** counts that are 0, inside a word, a multiple of 64, above it, the last and past the end *)
Definition counts := [0; 3; 64; 70; 192; 253; 254; 2 ^ 63].
Example C64_run :
  map (fun k => limbsAt 4 2000 (f_rawShr lay1 777 4 254 (sM 2000 k))) counts =
  map (fun k => Some (to_limbs 4 (if k <? 254 then (bn_r - 5) / 2 ^ k else 0))) counts /\
  map (fun k => limbsAt 4 4000 (f_rawShl lay1 777 4 254 (sM 4000 k))) counts =
  map (fun k => Some (to_limbs 4 (if k <? 254 then ((bn_r - 5) * 2 ^ k mod 2 ^ 254) mod bn_r else 0))) counts.
Proof. vm_compute. split; reflexivity. Qed.
