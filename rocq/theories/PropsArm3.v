(** Property C70: the AArch64 Montgomery multiplications. *)
From Coq Require Import ZArith List Bool Arith Lia.
From Verif Require Import Limbs Arm ArmFacts ArmRaw ArmCmp ArmZero ArmChain ArmSave ArmAdd ArmFrame ArmMul ArmMulMain ArmMulMain1 PropsArm PropsArm2.
Import ListNotations.
Open Scope Z_scope.

(** ** C70 *)
(** The routines save registers in [depth n] bytes below the stack pointer: 16 for each pair
    saved, where some registers are saved twice. *)
Example C70_depth : map depth (seq 1 12) = [0; 0; 16; 32; 64; 80; 80; 96; 112; 128; 128; 128].
Proof. reflexivity. Qed.
(** An operand and the result are anywhere outside them. *)
Definition mopnd (n : nat) (m : mach) (p : Z) (k : nat) : Prop := area m p k /\ cleard (depth n) m p k.
Definition mready (lay : sym -> Z) (m : mach) (n : nat) : Prop :=
  (1 <= n <= 12)%nat /\ stkd (depth n) m /\ room m (xr m 0) n /\ cleard (depth n) m (xr m 0) n /\ mopnd n m (lay Srawq) n /\ mopnd n m (lay Snp) 1 /\
  (mem m (lay Snp) * num (mem m) (lay Srawq) n + 1) mod 2 ^ 64 = 0.

(** rawMMul stores the r below q with r * 2^(64 n) congruent to a * b, for any a of n
    words and any b below q.  [opt] is the shape of the code that is generated when q
    leaves the top bit of its top word free. *)
Theorem C70_arm_rawMMul : forall lay n opt m,
  let a := num (mem m) (xr m 1) n in let b := num (mem m) (xr m 2) n in let q := num (mem m) (lay Srawq) n in
  mready lay m n -> mopnd n m (xr m 1) n -> mopnd n m (xr m 2) n ->
  b < q -> (opt = true -> 2 * q <= (2 ^ 64) ^ Z.of_nat n) ->
  exists m', run lay None (rawMMul opt n) m = Some m' /\ kept m m' /\ outsided (depth n) m m' (xr m 0) n /\
    let r := num (mem m') (xr m 0) n in 0 <= r < q /\ (r * (2 ^ 64) ^ Z.of_nat n) mod q = (a * b) mod q.
Proof.
  intros lay n opt m a b q (Hn & St & Rd & Cd & (Aq & Cq) & (Ap & Cp) & Hnp) [Aa Ca] [Ab Cb] Hb Ho.
  exact (mul_ok lay n opt m Hn St Rd Cd Aq Cq Ap Cp Aa Ca Ab Cb Hnp Hb Ho).
Qed.
Print Assumptions C70_arm_rawMMul.

(** Non-vacuity: three words, q = 2^64 - 1 + 7 * 2^128 at 4000, -1/q mod 2^64 = 1 at 4104. *)
Definition mulLay (s : sym) : Z := match s with Srawq => 4000 | Snp => 4104 | _ => 0 end.
Definition mF (x : Z) : Z := if x =? 4104 then 1 else sF x.
Definition mM : mach :=
  {| regs := regs sM'; sp := 8000; fN := false; fZ := false; fC := true; fV := false;
     mem := mF; mapd := fun x => mapd sM' x || inr 4104 1 x |}.
Lemma mM_op p k : (p, k) = (4104, 1%nat) \/ (In p [2000; 3000; 3504; 4000] /\ k = 3%nat) -> mopnd 3 mM p k.
Proof.
  intros [H|[Hp ->]].
  - injection H as -> ->. split; [|left; vm_compute; discriminate]. split; [lia|split; [vm_compute; discriminate|split; [reflexivity|]]].
    intros i Hi. destruct i; [|lia]. vm_compute. repeat split; discriminate.
  - cbn [In] in Hp. destruct Hp as [<-|[<-|[<-|[<-|[]]]]]; (split; [|left; vm_compute; discriminate]);
      (split; [lia|split; [vm_compute; discriminate|split; [reflexivity|]]]);
      intros i Hi; destruct i as [|[|[|i]]]; try lia; vm_compute; repeat split; discriminate.
Qed.
Lemma mM_ready : mready mulLay mM 3.
Proof.
  pose proof (mM_op 2000 3 ltac:(right; cbn; auto 10)) as [A0 C0]. split; [lia|]. split.
  - split; [reflexivity|]. intros i Hi Ho. change (depth 3) with 16 in Ho. do 3 (destruct i as [|i]; [try lia; reflexivity|]). unfold off in Ho. lia.
  - split; [exact (area_room _ _ _ A0)|]. split; [exact C0|]. split; [apply mM_op; right; cbn; auto 10|]. split; [apply mM_op; auto|reflexivity].
Qed.
Example C70_hyp : mready mulLay mM 3 /\ mopnd 3 mM (xr mM 1) 3 /\ mopnd 3 mM (xr mM 2) 3 /\
  let q := num (mem mM) (mulLay Srawq) 3 in
  num (mem mM) (xr mM 2) 3 < q /\ 2 * q <= (2 ^ 64) ^ 3.
Proof.
  split; [exact mM_ready|]. split; [apply mM_op; right; cbn; auto 10|]. split; [apply mM_op; right; cbn; auto 10|].
  split; [reflexivity|]. vm_compute. discriminate.
Qed.
Example C70_run :
  let q := num (mem mM) 4000 3 in
  forallb (fun opt => match run mulLay None (rawMMul opt 3) mM with
    | Some m' => let r := num (mem m') 2000 3 in (0 <? r) && (r <? q) && ((r * (2 ^ 64) ^ 3) mod q =? (num (mem mM) 3000 3 * num (mem mM) 3504 3) mod q)
    | None => false end) [true; false] = true.
Proof. vm_compute. reflexivity. Qed.

(** rawFromMontgomery loads its operand into n + 1 registers with the pair loads of an even
    count: for an odd n the word after the operand is read, so the routine faults when the
    operand ends a mapped region. *)
Theorem C70_arm_rawFromMontgomery_refuted : exists lay m,
  mready lay m 3 /\ mopnd 3 m (xr m 1) 3 /\
  (let q := num (mem m) (lay Srawq) 3 in num (mem m) (xr m 1) 3 < q /\ 2 * q <= (2 ^ 64) ^ 3) /\
  (forall opt, run lay None (rawFromMontgomery opt 3) m = None).
Proof.
  exists mulLay, mM. split; [exact mM_ready|]. split; [apply mM_op; right; cbn; auto 10|]. 
  split; [split; [reflexivity|vm_compute; discriminate]|]. intros [|]; vm_compute; reflexivity.
Qed.
Print Assumptions C70_arm_rawFromMontgomery_refuted.

(** rawMMul1 stores the r below q with r * 2^(64 n) congruent to a * w, for any a below q
    and any word w. *)
Theorem C70_arm_rawMMul1 : forall lay n opt m,
  let a := num (mem m) (xr m 1) n in let w := xr m 2 in let q := num (mem m) (lay Srawq) n in
  mready lay m n -> mopnd n m (xr m 1) n -> 0 <= w < 2 ^ 64 ->
  a < q -> (opt = true -> 2 * q <= (2 ^ 64) ^ Z.of_nat n) ->
  exists m', run lay None (rawMMul1 opt n) m = Some m' /\ kept m m' /\ outsided (depth n) m m' (xr m 0) n /\
    let r := num (mem m') (xr m 0) n in 0 <= r < q /\ (r * (2 ^ 64) ^ Z.of_nat n) mod q = (a * w) mod q.
Proof.
  intros lay n opt m a w q (Hn & St & Rd & Cd & (Aq & Cq) & (Ap & Cp) & Hnp) [Aa Ca] Hw Ha Ho.
  exact (mul1_ok lay n opt m Hn St Rd Cd Aq Cq Ap Cp Aa Ca Hnp Ha Ho Hw).
Qed.
Print Assumptions C70_arm_rawMMul1.
Example C70_hyp_1 : mready mulLay mM 3 /\ mopnd 3 mM (xr mM 1) 3 /\ 0 <= xr mM 2 < 2 ^ 64 /\
  let q := num (mem mM) (mulLay Srawq) 3 in num (mem mM) (xr mM 1) 3 < q /\ 2 * q <= (2 ^ 64) ^ 3.
Proof.
  split; [exact mM_ready|]. split; [apply mM_op; right; cbn; auto 10|]. split; [vm_compute; split; [discriminate|reflexivity]|].
  split; [reflexivity|]. vm_compute. discriminate.
Qed.
Example C70_run_1 :
  let q := num (mem mM) 4000 3 in
  forallb (fun opt => match run mulLay None (rawMMul1 opt 3) mM with
    | Some m' => let r := num (mem m') 2000 3 in (0 <? r) && (r <? q) && ((r * (2 ^ 64) ^ 3) mod q =? (num (mem mM) 3000 3 * xr mM 2) mod q)
    | None => false end) [true; false] = true.
Proof. vm_compute. reflexivity. Qed.

(** rawFromMontgomery stores the r below q with r * 2^(64 n) congruent to a, for any a below
    q.  The full claim has no hypothesis on the word after the operand; by the theorem above
    it fails without one.  For an even n the hypothesis follows from the operand's own. *)
Theorem C70_arm_rawFromMontgomery_partial : forall lay n opt m,
  let a := num (mem m) (xr m 1) n in let q := num (mem m) (lay Srawq) n in
  mready lay m n -> mopnd n m (xr m 1) n -> room m (xr m 1) (if Nat.even n then n else S n) ->
  a < q -> (opt = true -> 2 * q <= (2 ^ 64) ^ Z.of_nat n) ->
  exists m', run lay None (rawFromMontgomery opt n) m = Some m' /\ kept m m' /\ outsided (depth n) m m' (xr m 0) n /\
    let r := num (mem m') (xr m 0) n in 0 <= r < q /\ (r * (2 ^ 64) ^ Z.of_nat n) mod q = a mod q.
Proof.
  intros lay n opt m a q (Hn & St & Rd & Cd & (Aq & Cq) & (Ap & Cp) & Hnp) [Aa Ca] Re Ha Ho.
  exact (from_ok lay n opt m Hn St Rd Cd Aq Cq Ap Cp Aa Ca Hnp Ha Ho Re).
Qed.
Print Assumptions C70_arm_rawFromMontgomery_partial.
Theorem C70_arm_rawFromMontgomery_even : forall lay n opt m,
  let a := num (mem m) (xr m 1) n in let q := num (mem m) (lay Srawq) n in
  Nat.even n = true -> mready lay m n -> mopnd n m (xr m 1) n ->
  a < q -> (opt = true -> 2 * q <= (2 ^ 64) ^ Z.of_nat n) ->
  exists m', run lay None (rawFromMontgomery opt n) m = Some m' /\ kept m m' /\ outsided (depth n) m m' (xr m 0) n /\
    let r := num (mem m') (xr m 0) n in 0 <= r < q /\ (r * (2 ^ 64) ^ Z.of_nat n) mod q = a mod q.
Proof.
  intros lay n opt m a q He Hr Ho. apply C70_arm_rawFromMontgomery_partial; [exact Hr|exact Ho|].
  rewrite He. exact (area_room _ _ _ (proj1 Ho)).
Qed.
Print Assumptions C70_arm_rawFromMontgomery_even.
(** Non-vacuity: the machine above with the word after the operand mapped, and its lower two words. *)
Definition mM4 : mach :=
  {| regs := regs sM'; sp := 8000; fN := false; fZ := false; fC := true; fV := false;
     mem := mF; mapd := fun x => mapd mM x || inr 3000 4 x |}.
Lemma mM4_op p k n : n = 2%nat \/ n = 3%nat -> (p, k) = (4104, 1%nat) \/ (In p [2000; 3000; 3504; 4000] /\ k = n) -> mopnd n mM4 p k.
Proof.
  intros [->| ->] [H|[Hp ->]];
  [injection H as -> ->; split; [|left; vm_compute; discriminate]; split; [lia|split; [vm_compute; discriminate|split; [reflexivity|]]];
   intros i Hi; destruct i; [|lia]; vm_compute; repeat split; discriminate
  |cbn [In] in Hp; destruct Hp as [<-|[<-|[<-|[<-|[]]]]]; (split; [|left; vm_compute; discriminate]);
      (split; [lia|split; [vm_compute; discriminate|split; [reflexivity|]]]);
      intros i Hi; destruct i as [|[|[|i]]]; try lia; vm_compute; repeat split; discriminate
  |injection H as -> ->; split; [|left; vm_compute; discriminate]; split; [lia|split; [vm_compute; discriminate|split; [reflexivity|]]];
   intros i Hi; destruct i; [|lia]; vm_compute; repeat split; discriminate
  |cbn [In] in Hp; destruct Hp as [<-|[<-|[<-|[<-|[]]]]]; (split; [|left; vm_compute; discriminate]);
      (split; [lia|split; [vm_compute; discriminate|split; [reflexivity|]]]);
      intros i Hi; destruct i as [|[|[|i]]]; try lia; vm_compute; repeat split; discriminate].
Qed.
Lemma mM4_ready n : n = 2%nat \/ n = 3%nat -> mready mulLay mM4 n.
Proof.
  intros Hn. pose proof (mM4_op 2000 n n Hn ltac:(right; cbn; auto 10)) as [A0 C0]. split; [lia|]. split.
  - split; [reflexivity|]. intros i Hi Ho. destruct Hn as [->| ->]; [change (depth 2) with 0 in *|change (depth 3) with 16 in *];
      do 3 (destruct i as [|i]; [unfold off in Ho; try lia; reflexivity|]); unfold off in Ho; lia.
  - split; [exact (area_room _ _ _ A0)|]. split; [exact C0|]. split; [apply mM4_op; auto; right; cbn; auto 10|]. split; [apply mM4_op; auto|destruct Hn as [->| ->]; reflexivity].
Qed.
Example C70_hyp_from : mready mulLay mM4 3 /\ mopnd 3 mM4 (xr mM4 1) 3 /\ room mM4 (xr mM4 1) 4 /\
  let q := num (mem mM4) (mulLay Srawq) 3 in num (mem mM4) (xr mM4 1) 3 < q /\ 2 * q <= (2 ^ 64) ^ 3.
Proof.
  split; [apply mM4_ready; auto|]. split; [apply mM4_op; auto; right; cbn; auto 10|]. split.
  - split; [vm_compute; discriminate|split; [vm_compute; discriminate|split; [reflexivity|]]]. intros i Hi. destruct i as [|[|[|[|i]]]]; try lia; reflexivity.
  - split; [reflexivity|vm_compute; discriminate].
Qed.
Example C70_hyp_even : Nat.even 2 = true /\ mready mulLay mM4 2 /\ mopnd 2 mM4 (xr mM4 1) 2 /\
  let q := num (mem mM4) (mulLay Srawq) 2 in num (mem mM4) (xr mM4 1) 2 < q.
Proof. split; [reflexivity|]. split; [apply mM4_ready; auto|]. split; [apply mM4_op; auto; right; cbn; auto 10|]. vm_compute. reflexivity. Qed.
Example C70_run_from :
  forallb (fun n => let q := num (mem mM4) 4000 n in
  forallb (fun opt => match run mulLay None (rawFromMontgomery opt n) mM4 with
    | Some m' => let r := num (mem m') 2000 n in (0 <? r) && (r <? q) && ((r * (2 ^ 64) ^ Z.of_nat n) mod q =? (num (mem mM4) 3000 n) mod q)
    | None => false end) [true; false]) [2; 3]%nat = true.
Proof. vm_compute. reflexivity. Qed.
