(** Property C68: the AArch64 copies and comparisons. *)
From Coq Require Import ZArith List Bool Arith Lia.
From Verif Require Import Limbs Arm ArmFacts ArmRaw ArmCmp ArmZero.
Import ListNotations.
Open Scope Z_scope.

(** ** C68 *)
(** [n] words are mapped at [p] ([room]), and hold words ([area]); a routine leaves the
    stack pointer and x18 to x30 as they were ([kept]); [apart]: the same or disjoint. *)
Theorem C68_arm_rawCopy : forall lay n m, let d := xr m 0 in let s := xr m 1 in
  (0 < n)%nat -> room m d n -> room m s n -> apart d s n ->
  exists m', run lay None (rawCopy n) m = Some m' /\ kept m m' /\
    (forall i, (i < n)%nat -> mem m' (d + 8 * Z.of_nat i) = mem m (s + 8 * Z.of_nat i)) /\
    (forall a, (forall i, (i < n)%nat -> a <> d + 8 * Z.of_nat i) -> mem m' a = mem m a).
Proof. exact copy_ok. Qed.
Print Assumptions C68_arm_rawCopy.

Theorem C68_arm_rawSwap : forall lay n m, let d := xr m 0 in let s := xr m 1 in
  room m d n -> room m s n -> apart d s n ->
  exists m', run lay None (rawSwap n) m = Some m' /\ kept m m' /\
    (forall i, (i < n)%nat -> mem m' (d + 8 * Z.of_nat i) = mem m (s + 8 * Z.of_nat i) /\ mem m' (s + 8 * Z.of_nat i) = mem m (d + 8 * Z.of_nat i)) /\
    (forall a, (forall i, (i < n)%nat -> a <> d + 8 * Z.of_nat i /\ a <> s + 8 * Z.of_nat i) -> mem m' a = mem m a).
Proof. exact swap_ok. Qed.
Print Assumptions C68_arm_rawSwap.

Theorem C68_arm_rawIsZero : forall lay n m, let p := xr m 0 in
  (0 < n)%nat -> area m p n ->
  exists m', run lay None (rawIsZero n) m = Some m' /\ kept m m' /\ mem m' = mem m /\
    xr m' 0 = (if num (mem m) p n =? 0 then 1 else 0).
Proof. exact isZero_ok. Qed.
Print Assumptions C68_arm_rawIsZero.

(** x0 is minus the count k as a 64-bit number, so w0 is -k as an int *)
Theorem C68_arm_rawCmp : forall lay n m, let p := xr m 0 in let q := xr m 1 in
  (0 < n)%nat -> Z.of_nat n < 2 ^ 31 -> area m p n -> area m q n ->
  exists m' k, run lay None (rawCmp n) m = Some m' /\ kept m m' /\ mem m' = mem m /\
    0 <= k < 2 ^ 31 /\ (k = 0 <-> num (mem m) p n = num (mem m) q n) /\
    xr m' 0 = (if num (mem m) p n <? num (mem m) q n then (- k) mod 2 ^ 64 else k).
Proof.
  intros lay n m p q Hn Hl A A'. destruct (cmp_ok lay n m Hn) as (m' & k & E & K & M & Hk & H); auto.
  { change B with (2 ^ 64). lia. }
  exists m', k. split; [exact E|]. split; [exact K|]. split; [exact M|]. split; [lia|exact H].
Qed.
Print Assumptions C68_arm_rawCmp.

(** What is missing: 7 words; see the refutation below. *)
Theorem C68_arm_rawIsEq_partial : forall lay n m, let p := xr m 0 in let q := xr m 1 in
  (0 < n)%nat -> n <> 7%nat -> area m p n -> area m q n ->
  exists m', run lay None (rawIsEq n) m = Some m' /\ kept m m' /\ mem m' = mem m /\
    xr m' 0 = (if num (mem m) p n =? num (mem m) q n then 1 else 0).
Proof. intros lay n m p q Hn H7 A A'. exact (isEq_ok lay n m Hn A A' H7). Qed.
Print Assumptions C68_arm_rawIsEq_partial.

(** Non-vacuity: three words at 2000 and at 3000, and runs on them. *)
Definition inr (p n x : Z) : bool := (p <=? x) && (x <? p + 8 * n) && (x mod 8 =? 0).
Definition aM (n : Z) (f : Z -> Z) : mach :=
  {| regs := fun r => match r with O => 2000 | S O => 3000 | _ => 77 end; sp := 8000; fN := false; fZ := false; fC := true; fV := false;
     mem := f; mapd := fun x => inr 2000 n x || inr 3000 n x |}.
Definition aF (x : Z) : Z := if x =? 2008 then 5 else if x =? 3008 then 5 else if x =? 3016 then 1 else 0.
Definition noLay (s : sym) : Z := 0.
Example C68_hyp : area (aM 3 aF) 2000 3 /\ area (aM 3 aF) 3000 3 /\ room (aM 3 aF) 2000 3 /\ room (aM 3 aF) 3000 3 /\ apart 2000 3000 3.
Proof.
  assert (A : area (aM 3 aF) 2000 3 /\ area (aM 3 aF) 3000 3).
  { split; (split; [lia|split; [vm_compute; discriminate|split; [reflexivity|]]]);
      intros i Hi; destruct i as [|[|[|i]]]; try lia; vm_compute; repeat split; discriminate. }
  destruct A as [A1 A2]. split; [exact A1|]. split; [exact A2|]. split; [exact (area_room _ _ _ A1)|]. split; [exact (area_room _ _ _ A2)|].
  right. left. vm_compute. discriminate.
Qed.
Example C68_run :
  let f := map (fun o => option_map (fun m => (xr m 0, map (mem m) [2000; 2008; 2016; 3000; 3008; 3016])) o) in
  f [run noLay None (rawCopy 3) (aM 3 aF); run noLay None (rawSwap 3) (aM 3 aF); run noLay None (rawIsZero 3) (aM 3 aF);
     run noLay None (rawIsEq 3) (aM 3 aF); run noLay None (rawCmp 3) (aM 3 aF)] =
  [Some (2000, [0; 5; 1; 0; 5; 1]); Some (2000, [0; 5; 1; 0; 5; 0]); Some (0, [0; 5; 0; 0; 5; 1]);
   Some (0, [0; 5; 0; 0; 5; 1]); Some (2 ^ 64 - 1, [0; 5; 0; 0; 5; 1])].
Proof. vm_compute. reflexivity. Qed.

(** FINDING.  With 7 words, rawIsEq holds the difference of words 0 to 3 in x4 while it
    takes the difference of words 4 to 6; but there are only three work registers (line
    414), and the third one taken for words 4 to 6 is x4 again.  So words 0 to 3 are not
    compared: 5 and 0 are said to be equal. *)
Theorem C68_arm_rawIsEq_refuted : exists m, area m (xr m 0) 7 /\ area m (xr m 1) 7 /\
  num (mem m) (xr m 0) 7 = 5 /\ num (mem m) (xr m 1) 7 = 0 /\
  exists m', run noLay None (rawIsEq 7) m = Some m' /\ xr m' 0 = 1.
Proof.
  exists (aM 7 (fun x => if x =? 2000 then 5 else 0)).
  split; [|split; [|split; [reflexivity|split; [reflexivity|]]]].
  1,2: split; [vm_compute; discriminate|split; [vm_compute; discriminate|split; [reflexivity|]]];
       intros i Hi; destruct i as [|[|[|[|[|[|[|i]]]]]]]; try lia; vm_compute; repeat split; discriminate.
  eexists. split; vm_compute; reflexivity.
Qed.
Print Assumptions C68_arm_rawIsEq_refuted.
