(** Property C69: the AArch64 additions and subtractions modulo q. *)
From Coq Require Import ZArith List Bool Arith Lia.
From Verif Require Import Limbs Arm ArmFacts ArmRaw ArmCmp ArmZero ArmChain ArmSave ArmAdd ArmSub PropsArm.
Import ListNotations.
Open Scope Z_scope.

(** ** C69 *)
(** An operand is [n] words below or above the 96 bytes under the stack pointer, where
    registers are saved; the same holds for q (at the symbol rawq) and the result. *)
Definition operand (m : mach) (p : Z) (n : nat) : Prop := area m p n /\ clear_of m p n.
Definition ready (lay : sym -> Z) (m : mach) (n : nat) : Prop :=
  (1 <= n <= 12)%nat /\ stk m /\ room m (xr m 0) n /\ clear_of m (xr m 0) n /\ operand m (lay Srawq) n.

Theorem C69_arm_rawAdd : forall lay n m,
  let a := num (mem m) (xr m 1) n in let b := num (mem m) (xr m 2) n in let q := num (mem m) (lay Srawq) n in
  ready lay m n -> operand m (xr m 1) n -> operand m (xr m 2) n -> a < q -> b < q ->
  exists m', run lay None (rawAdd n) m = Some m' /\ kept m m' /\ num (mem m') (xr m 0) n = (a + b) mod q /\ outside m m' (xr m 0) n.
Proof.
  intros lay n m a b q (Hn & St & Rd & Cd & Aq & Cq) [Aa Ca] [Ab Cb] Ha Hb.
  pose proof (area_num _ _ _ Ab) as Nb.
  destruct (add_any lay n m Hn St Rd Cd Aq Cq false (fun j => mem m (xr m 2 + off j))) as (m' & E & K & R & O); auto.
  { intros m1 m2 w Q M1 M2 X. apply (src_mem n (cyclicCopy w n) 2%nat m m1 m2); auto. }
  { rewrite <- sm_num. fold b. fold b in Nb. split; [lia|exact Hb]. }
  exists m'. rewrite <- sm_num in R. auto.
Qed.
Print Assumptions C69_arm_rawAdd.

Theorem C69_arm_rawAddLS : forall lay n m,
  let a := num (mem m) (xr m 1) n in let b := xr m 2 in let q := num (mem m) (lay Srawq) n in
  ready lay m n -> operand m (xr m 1) n -> a < q -> 0 <= b < 2 ^ 64 -> b < q ->
  exists m', run lay None (rawAddLS n) m = Some m' /\ kept m m' /\ num (mem m') (xr m 0) n = (a + b) mod q /\ outside m m' (xr m 0) n.
Proof.
  intros lay n m a b q (Hn & St & Rd & Cd & Aq & Cq) [Aa Ca] Ha Hb Hq.
  destruct (add_any lay n m Hn St Rd Cd Aq Cq true (wrd b)) as (m' & E & K & R & O); auto.
  { intros m1 m2 w Q M1 M2 X. unfold b. rewrite <- X. apply src_word; [lia|]. rewrite X. exact Hb. }
  { rewrite sm_wrd by lia. lia. }
  rewrite sm_wrd in R by lia. exists m'. auto.
Qed.
Print Assumptions C69_arm_rawAddLS.

Theorem C69_arm_rawSub : forall lay n m,
  let a := num (mem m) (xr m 1) n in let b := num (mem m) (xr m 2) n in let q := num (mem m) (lay Srawq) n in
  ready lay m n -> operand m (xr m 1) n -> operand m (xr m 2) n -> a < q -> b < q ->
  exists m', run lay None (rawSubG SubLL n) m = Some m' /\ kept m m' /\ num (mem m') (xr m 0) n = (a - b) mod q /\ outside m m' (xr m 0) n.
Proof.
  intros lay n m a b q (Hn & St & Rd & Cd & Aq & Cq) [Aa Ca] [Ab Cb] Ha Hb.
  pose proof (area_num _ _ _ Aa) as Na. pose proof (area_num _ _ _ Ab) as Nb. fold a in Na. fold b in Nb.
  destruct (sub_any lay n m Hn St Rd Cd Aq Cq SubLL (fun j => mem m (xr m 1 + off j)) (fun j => mem m (xr m 2 + off j))) as (m' & E & K & R & O); auto.
  { intros m1 m2 w Q M1 M2 X1 X2. apply (src_mem n w 1%nat m m1 m2); auto. }
  { intros r1 m1 m2 w Q M1 M2 X1 X2. apply (src_mem n (cyclicCopy w n) 2%nat m m1 m2); auto. }
  { rewrite <- sm_num. fold a q. lia. } { rewrite <- sm_num. fold b q. lia. }
  exists m'. rewrite <- !sm_num in R. auto.
Qed.
Print Assumptions C69_arm_rawSub.

Theorem C69_arm_rawSubLS : forall lay n m,
  let a := num (mem m) (xr m 1) n in let b := xr m 2 in let q := num (mem m) (lay Srawq) n in
  ready lay m n -> operand m (xr m 1) n -> a < q -> 0 <= b < 2 ^ 64 -> b < q ->
  exists m', run lay None (rawSubG SubLS n) m = Some m' /\ kept m m' /\ num (mem m') (xr m 0) n = (a - b) mod q /\ outside m m' (xr m 0) n.
Proof.
  intros lay n m a b q (Hn & St & Rd & Cd & Aq & Cq) [Aa Ca] Ha Hb Hq.
  pose proof (area_num _ _ _ Aa) as Na. fold a in Na.
  destruct (sub_any lay n m Hn St Rd Cd Aq Cq SubLS (fun j => mem m (xr m 1 + off j)) (wrd b)) as (m' & E & K & R & O); auto.
  { intros m1 m2 w Q M1 M2 X1 X2. apply (src_mem n w 1%nat m m1 m2); auto. }
  { intros r1 m1 m2 w Q M1 M2 X1 X2. unfold b. rewrite <- X2. apply src_word; [lia|]. rewrite X2. exact Hb. }
  { rewrite <- sm_num. fold a q. lia. } { rewrite sm_wrd by lia. fold q. lia. }
  exists m'. rewrite <- sm_num, sm_wrd in R by lia. auto.
Qed.
Print Assumptions C69_arm_rawSubLS.

Theorem C69_arm_rawSubSL : forall lay n m,
  let a := xr m 1 in let b := num (mem m) (xr m 2) n in let q := num (mem m) (lay Srawq) n in
  ready lay m n -> operand m (xr m 2) n -> 0 <= a < 2 ^ 64 -> a < q -> b < q ->
  exists m', run lay None (rawSubG SubSL n) m = Some m' /\ kept m m' /\ num (mem m') (xr m 0) n = (a - b) mod q /\ outside m m' (xr m 0) n.
Proof.
  intros lay n m a b q (Hn & St & Rd & Cd & Aq & Cq) [Ab Cb] Ha Haq Hb.
  pose proof (area_num _ _ _ Ab) as Nb. fold b in Nb.
  destruct (sub_any lay n m Hn St Rd Cd Aq Cq SubSL (wrd a) (fun j => mem m (xr m 2 + off j))) as (m' & E & K & R & O); auto.
  { intros m1 m2 w Q M1 M2 X1 X2. unfold a. rewrite <- X1. apply src_word; [lia|]. rewrite X1. exact Ha. }
  { intros r1 m1 m2 w Q M1 M2 X1 X2. apply (src_mem n r1 2%nat m m1 m2); auto. }
  { rewrite sm_wrd by lia. fold q. lia. } { rewrite <- sm_num. fold b q. lia. }
  exists m'. rewrite <- sm_num, sm_wrd in R by lia. auto.
Qed.
Print Assumptions C69_arm_rawSubSL.

(** What rawNegLS stores: 2q - a - b, without a reduction, whatever a and b *)
Theorem C69_arm_rawNegLS_value : forall lay n m,
  let a := num (mem m) (xr m 1) n in let b := xr m 2 in let q := num (mem m) (lay Srawq) n in
  ready lay m n -> (n <= 10)%nat -> operand m (xr m 1) n -> a < q -> 0 <= b < 2 ^ 64 -> b < q ->
  exists m', run lay None (rawNegLS n) m = Some m' /\ kept m m' /\
    num (mem m') (xr m 0) n = (2 * q - a - b) mod (2 ^ 64) ^ Z.of_nat n /\ outside m m' (xr m 0) n.
Proof.
  intros lay n m a b q (Hn & St & Rd & Cd & Aq & Cq) Hn' [Aa Ca] Ha Hb Hq.
  exact (negls_any lay n m Hn St Rd Cd Aq Cq Hn' Aa Ca Ha Hb Hq).
Qed.
Print Assumptions C69_arm_rawNegLS_value.

(** What is missing: a + b <= q, where the result is wrong, and 11 and 12 words. *)
Theorem C69_arm_rawNegLS_partial : forall lay n m,
  let a := num (mem m) (xr m 1) n in let b := xr m 2 in let q := num (mem m) (lay Srawq) n in
  ready lay m n -> (n <= 10)%nat -> operand m (xr m 1) n -> a < q -> 0 <= b < 2 ^ 64 -> b < q -> q < a + b ->
  exists m', run lay None (rawNegLS n) m = Some m' /\ kept m m' /\
    num (mem m') (xr m 0) n = (- (a + b)) mod q /\ outside m m' (xr m 0) n.
Proof.
  intros lay n m a b q R Hn A Ha Hb Hq Hs. destruct (C69_arm_rawNegLS_value lay n m R Hn A Ha Hb Hq) as (m' & E & K & V & O).
  destruct R as (_ & _ & _ & _ & Aq & _). pose proof (area_num _ _ _ Aq) as Nq. fold q in Nq. change B with (2 ^ 64) in Nq.
  exists m'. split; [exact E|]. split; [exact K|]. split; [|exact O]. rewrite V. fold a b q.
  rewrite Z.mod_small by lia. rewrite <- (Z_mod_plus_full (- (a + b)) 2 q). rewrite Z.mod_small; lia.
Qed.
Print Assumptions C69_arm_rawNegLS_partial.

(** Every a and b with a + b <= q gets a wrong result (as q is not half the range). *)
Theorem C69_arm_rawNegLS_wrong : forall lay n m,
  let a := num (mem m) (xr m 1) n in let b := xr m 2 in let q := num (mem m) (lay Srawq) n in
  ready lay m n -> (n <= 10)%nat -> operand m (xr m 1) n -> a < q -> 0 <= b < 2 ^ 64 -> b < q -> a + b <= q -> 2 * q <> (2 ^ 64) ^ Z.of_nat n ->
  exists m', run lay None (rawNegLS n) m = Some m' /\ num (mem m') (xr m 0) n <> (- (a + b)) mod q.
Proof.
  intros lay n m a b q R Hn A Ha Hb Hq Hs H2. destruct (C69_arm_rawNegLS_value lay n m R Hn A Ha Hb Hq) as (m' & E & K & V & O).
  destruct R as (_ & _ & _ & _ & Aq & _). pose proof (area_num _ _ _ Aq) as Nq. fold q in Nq. change B with (2 ^ 64) in Nq.
  destruct A as [Aa _]. pose proof (area_num _ _ _ Aa) as Na. fold a in Na. change B with (2 ^ 64) in Na.
  exists m'. split; [exact E|]. rewrite V. fold a b q. set (P := (2 ^ 64) ^ Z.of_nat n) in *.
  pose proof (Z.div_mod (2 * q - a - b) P ltac:(lia)) as D1. pose proof (Z.mod_pos_bound (2 * q - a - b) P ltac:(lia)) as D2.
  pose proof (Z.div_mod (- (a + b)) q ltac:(lia)) as D3. pose proof (Z.mod_pos_bound (- (a + b)) q ltac:(lia)) as D4.
  intros Eq. set (k := (2 * q - a - b) / P) in *. set (j := - (a + b) / q) in *.
  assert (Hk : k = 0 \/ k = 1) by nia.
  assert (Hj : j = 0 \/ j = -1) by nia.
  destruct Hk as [Hk|Hk], Hj as [Hj|Hj]; rewrite Hk, Hj in *; nia.
Qed.
Print Assumptions C69_arm_rawNegLS_wrong.

(** Non-vacuity: three words, q = 2^64 - 1 + 7 * 2^128 at 4000, the stack at 8000. *)
Definition sumLay (s : sym) : Z := match s with Srawq => 4000 | _ => 0 end.
Definition sM (n : Z) (b : Z) (f : Z -> Z) : mach :=
  {| regs := fun r => match r with O => 2000 | S O => 3000 | S (S O) => b | _ => 77 end; sp := 8000; fN := false; fZ := false; fC := true; fV := false;
     mem := f; mapd := fun x => inr 2000 n x || inr 3000 n x || inr 4000 n x || inr 7904 12 x |}.
Definition sF (x : Z) : Z :=
  if x =? 3000 then 5 else if x =? 3016 then 3 else if x =? 3504 then 9 else if x =? 3520 then 6 else
  if x =? 4000 then 2 ^ 64 - 1 else if x =? 4016 then 7 else 0.
Definition sM' : mach :=
  {| regs := fun r => match r with O => 2000 | S O => 3000 | S (S O) => 3504 | _ => 77 end; sp := 8000; fN := false; fZ := false; fC := true; fV := false;
     mem := sF; mapd := fun x => inr 2000 3 x || inr 3000 3 x || inr 3504 3 x || inr 4000 3 x || inr 7904 12 x |}.
Example C69_hyp : ready sumLay sM' 3 /\ operand sM' (xr sM' 1) 3 /\ operand sM' (xr sM' 2) 3 /\
  num (mem sM') (xr sM' 1) 3 < num (mem sM') (sumLay Srawq) 3 /\ num (mem sM') (xr sM' 2) 3 < num (mem sM') (sumLay Srawq) 3.
Proof.
  assert (A : forall p, In p [2000; 3000; 3504; 4000] -> operand sM' p 3).
  { intros p Hp. cbn [In] in Hp. destruct Hp as [<-|[<-|[<-|[<-|[]]]]]; (split; [|left; vm_compute; discriminate]);
      (split; [lia|split; [vm_compute; discriminate|split; [reflexivity|]]]);
      intros i Hi; destruct i as [|[|[|i]]]; try lia; vm_compute; repeat split; discriminate. }
  pose proof (A 2000 ltac:(cbn; auto)) as [A0 C0].
  split.
  { split; [lia|]. split.
    - split; [reflexivity|]. intros i Hi. do 13 (destruct i as [|i]; [try lia; reflexivity|]). lia.
    - split; [exact (area_room _ _ _ A0)|]. split; [exact C0|]. apply (A 4000). cbn. auto. }
  split; [apply (A 3000); cbn; auto|]. split; [apply (A 3504); cbn; auto|]. split; reflexivity.
Qed.
Example C69_run :
  let f := map (fun o => option_map (fun m => map (mem m) [2000; 2008; 2016]) o) in
  f [run sumLay None (rawAdd 3) sM'; run sumLay None (rawAddLS 3) sM'; run sumLay None (rawSubG SubLL 3) sM'; run sumLay None (rawSubG SubLS 3) sM';
     run sumLay None (rawSubG SubSL 3) sM'] =
  [Some [15; 2 ^ 64 - 1; 1]; Some [3509; 0; 3]; Some [2 ^ 64 - 5; 0; 4]; Some [2 ^ 64 - 3499; 2 ^ 64 - 1; 2]; Some [2990; 1; 1]].
Proof. vm_compute. reflexivity. Qed.

(** FINDING.  rawNegLS (lines 968-1029) sets its two flags when the subtractions did not
    borrow, and skips the addition of q only if both borrowed. *)
Theorem C69_arm_rawNegLS_refuted : exists m, ready sumLay m 1 /\ operand m (xr m 1) 1 /\
  num (mem m) (xr m 1) 1 = 3 /\ xr m 2 = 8 /\ num (mem m) (sumLay Srawq) 1 = 13 /\
  exists m', run sumLay None (rawNegLS 1) m = Some m' /\ num (mem m') (xr m 0) 1 = 15.
Proof.
  exists (sM 1 8 (fun x => if x =? 3000 then 3 else if x =? 4000 then 13 else 0)).
  assert (A : forall p, In p [2000; 3000; 4000] -> operand (sM 1 8 (fun x => if x =? 3000 then 3 else if x =? 4000 then 13 else 0)) p 1).
  { intros p Hp. cbn [In] in Hp. destruct Hp as [<-|[<-|[<-|[]]]]; (split; [|left; vm_compute; discriminate]);
      (split; [lia|split; [vm_compute; discriminate|split; [reflexivity|]]]);
      intros i Hi; destruct i as [|i]; try lia; vm_compute; repeat split; discriminate. }
  pose proof (A 2000 ltac:(cbn; auto)) as [A0 C0].
  split.
  { split; [lia|]. split.
    - split; [reflexivity|]. intros i Hi. do 13 (destruct i as [|i]; [try lia; reflexivity|]). lia.
    - split; [exact (area_room _ _ _ A0)|]. split; [exact C0|]. apply (A 4000). cbn. auto. }
  split; [apply (A 3000); cbn; auto|]. repeat (split; [reflexivity|]).
  eexists. split; vm_compute; reflexivity.
Qed.
Print Assumptions C69_arm_rawNegLS_refuted.
