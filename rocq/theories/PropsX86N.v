(** Property C67: the x86-64 copyn. *)
From Coq Require Import ZArith List Bool Arith Lia.
From Verif Require Import Limbs LimbsFacts X86 X86Call X86Inst X86Copyn X86CopynFacts.
Import ListNotations.
Open Scope Z_scope.

(** ** C67 *)
(** copyn with the count [c] in all of rdx copies c elements of n+1 words, also onto an
    overlapping array that starts lower; nothing else is written, and of the registers only
    rax, rcx, rdx, r8 and r9 change.  What is missing: the C prototype has an int count,
    whose register may carry anything in its upper half; see the refutation below. *)
Theorem C67_x86_copyn_partial : forall n m c, let d := regs m RDI in let s := regs m RSI in let k := (Z.of_nat n + 1) * c in
  Z.of_nat n + 1 < 2 ^ 64 -> words m -> regs m RDX = c -> s mod 8 = 0 -> d mod 8 = 0 -> s + 8 * k <= 2 ^ 64 -> d + 8 * k <= 2 ^ 64 ->
  d <= s \/ s + 8 * k <= d -> ~ (d <= regs m RSP < d + 8 * k) ->
  exists m', f_copyn n m = Some m' /\ words m' /\
    (forall i j, 0 <= i < c -> 0 <= j <= Z.of_nat n -> mem m' (d + 8 * ((Z.of_nat n + 1) * i + j)) = mem m (s + 8 * ((Z.of_nat n + 1) * i + j))) /\
    (forall x, ~ (d <= x < d + 8 * k) -> mem m' x = mem m x) /\
    (forall r, ~ In r [RAX; RCX; RDX; R8; R9; RSP] -> regs m' r = regs m r) /\ regs m' RSP = (regs m RSP + 8) mod 2 ^ 64.
Proof.
  intros n m c d s k N W C A1 A2 R1 R2 O SP. pose proof (proj1 W RDX) as RX. pose proof (proj1 W RDI) as RD. rewrite C in RX. fold d in RD.
  assert (K : (Z.of_nat n + 1) * regs m RDX mod B = k) by (rewrite C; apply Z.mod_small; unfold k, B in *; nia).
  destruct (copyn_ok n m N W A1 A2) as (m' & E & W' & M1 & M2 & R & S); rewrite ?K; try assumption. rewrite K in M1, M2.
  exists m'. split; [exact E|]. split; [exact W'|]. split; [|split; [exact M2|split; [|exact S]]].
  - intros i j Hi Hj. apply M1. unfold k. nia.
  - intros r Hr. cbn [In] in Hr. apply R; intros ->; apply Hr; tauto.
Qed.
Print Assumptions C67_x86_copyn_partial.

(** Non-vacuity: two elements of three words moved down by one word. *)
Definition nM := {| regs := fun r => match r with RSP => 80000 | RDI => 1992 | RSI => 2000 | RDX => 2 | RBX => 77 | _ => 12345 end;
  fl := {| cf := true; ovf := true; zf := false |}; mem := put (fun _ => 999) 2000 [1; 2; 3; 4; 5; 6; 7] |}.
Example C67_hyp : words nM /\ regs nM RDX = 2 /\ regs nM RSI mod 8 = 0 /\ regs nM RDI mod 8 = 0 /\ regs nM RSI + 8 * (3 * 2) <= 2 ^ 64 /\ regs nM RDI + 8 * (3 * 2) <= 2 ^ 64 /\ regs nM RDI <= regs nM RSI /\ ~ (regs nM RDI <= regs nM RSP < regs nM RDI + 8 * (3 * 2)).
Proof.
  split; [split; [intros r; destruct r; cbn [regs nM]; split; (discriminate || reflexivity)|]|cbn [regs nM]; repeat split; try reflexivity; try discriminate; lia].
  intros x. cbn [mem nM]. apply put_range; [intros y; split; [discriminate|reflexivity]|]. repeat constructor; discriminate.
Qed.
Example C67_run : option_map (fun m => (map (mem m) [1984; 1992; 2000; 2008; 2016; 2024; 2032; 2040; 2048], regs m RDI, regs m RSI, regs m RBX, regs m RSP)) (f_copyn 2 nM) = Some ([999; 1; 2; 3; 4; 5; 6; 6; 7], 1992, 2000, 77, 80008).
Proof. vm_compute. reflexivity. Qed.

(** FINDING.  The count of the prototype is an int (fr.hpp.ejs line 18), which the System V
    convention passes in edx with the upper half of rdx unspecified; the code multiplies by
    all of rdx (line 94).  With the count 1 and upper half 1, words behind the single
    destination element are overwritten. *)
Definition nW := {| regs := fun r => match r with RSP => 2 ^ 50 | RDI => 2 ^ 40 | RSI => 2 ^ 41 | RDX => 2 ^ 32 + 1 | _ => 0 end;
  fl := {| cf := true; ovf := true; zf := false |}; mem := fun x => x mod 2 ^ 64 |}.
Theorem C67_x86_int_count_refuted : exists m m' x, words m /\ regs m RDX mod 2 ^ 32 = 1 /\ f_copyn 4 m = Some m' /\ regs m RDI + 8 * 5 <= x /\ x < regs m RSP /\ mem m' x <> mem m x.
Proof.
  assert (W : words nW) by (split; [intros r; destruct r; cbn [regs nW]; split; vm_compute; (discriminate || reflexivity)|intros x; cbn [mem nW]; apply Z.mod_pos_bound; reflexivity]).
  assert (K : (Z.of_nat 4 + 1) * regs nW RDX mod B = 5 * 2 ^ 32 + 5) by reflexivity.
  assert (G : exists m', f_copyn 4 nW = Some m' /\ mem m' (2 ^ 40 + 40) = mem nW (2 ^ 41 + 40)).
  { destruct (copyn_ok 4 nW) as (m' & E & _ & M & _).
    - reflexivity.
    - exact W.
    - reflexivity.
    - reflexivity.
    - rewrite K. vm_compute. discriminate.
    - rewrite K. vm_compute. discriminate.
    - rewrite K. left. vm_compute. discriminate.
    - rewrite K. intros [_ H]. revert H. vm_compute. discriminate.
    - rewrite K in M. exists m'. split; [exact E|]. exact (M 5 ltac:(lia)). }
  destruct G as (m' & E & M). exists nW, m', (2 ^ 40 + 40). split; [exact W|]. split; [reflexivity|]. split; [exact E|]. split; [vm_compute; discriminate|]. split; [reflexivity|]. rewrite M. vm_compute. discriminate.
Qed.
Print Assumptions C67_x86_int_count_refuted.
