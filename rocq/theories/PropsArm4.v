(** Property C71: the AArch64 bitwise operations. *)
From Coq Require Import ZArith List Bool Arith Lia.
From Verif Require Import Limbs Arm ArmFacts ArmRaw ArmCmp ArmZero ArmChain ArmSave ArmAdd ArmMul ArmBin ArmBinFacts PropsArm PropsArm2.
Import ListNotations.
Open Scope Z_scope.

(** ** C71 *)
(** q has k bits, and the word at lboMask has the ones of the k-bit mask that are in its
    top word. *)
Definition masked (lay : sym -> Z) (m : mach) (n : nat) (k : Z) : Prop :=
  let q := num (mem m) (lay Srawq) n in
  operand m (lay SlboMask) 1 /\ 0 <= k /\ (mem m (lay SlboMask) + 1) * (2 ^ 64) ^ Z.of_nat (n - 1) = 2 ^ k /\ q < 2 ^ k <= 2 * q.

Theorem C71_arm_rawAnd : forall lay n m k,
  let a := num (mem m) (xr m 1) n in let b := num (mem m) (xr m 2) n in let q := num (mem m) (lay Srawq) n in
  ready lay m n -> masked lay m n k -> operand m (xr m 1) n -> operand m (xr m 2) n ->
  exists m', run lay None (rawBin BAnd n) m = Some m' /\ kept m m' /\ num (mem m') (xr m 0) n = (Z.land a b mod 2 ^ k) mod q /\ outside m m' (xr m 0) n.
Proof.
  intros lay n m k a b q (Hn & St & Rd & Cd & Aq & Cq) ((Am & Cm) & Hk & HM & Hq) [Aa Ca] Hb.
  exact (bin_ok lay n BAnd m k Hn St Rd Cd Aq Cq Am Cm Aa Ca (fun _ => Hb) Hk HM Hq).
Qed.
Print Assumptions C71_arm_rawAnd.

Theorem C71_arm_rawOr : forall lay n m k,
  let a := num (mem m) (xr m 1) n in let b := num (mem m) (xr m 2) n in let q := num (mem m) (lay Srawq) n in
  ready lay m n -> masked lay m n k -> operand m (xr m 1) n -> operand m (xr m 2) n ->
  exists m', run lay None (rawBin BOr n) m = Some m' /\ kept m m' /\ num (mem m') (xr m 0) n = (Z.lor a b mod 2 ^ k) mod q /\ outside m m' (xr m 0) n.
Proof.
  intros lay n m k a b q (Hn & St & Rd & Cd & Aq & Cq) ((Am & Cm) & Hk & HM & Hq) [Aa Ca] Hb.
  exact (bin_ok lay n BOr m k Hn St Rd Cd Aq Cq Am Cm Aa Ca (fun _ => Hb) Hk HM Hq).
Qed.
Print Assumptions C71_arm_rawOr.

Theorem C71_arm_rawXor : forall lay n m k,
  let a := num (mem m) (xr m 1) n in let b := num (mem m) (xr m 2) n in let q := num (mem m) (lay Srawq) n in
  ready lay m n -> masked lay m n k -> operand m (xr m 1) n -> operand m (xr m 2) n ->
  exists m', run lay None (rawBin BXor n) m = Some m' /\ kept m m' /\ num (mem m') (xr m 0) n = (Z.lxor a b mod 2 ^ k) mod q /\ outside m m' (xr m 0) n.
Proof.
  intros lay n m k a b q (Hn & St & Rd & Cd & Aq & Cq) ((Am & Cm) & Hk & HM & Hq) [Aa Ca] Hb.
  exact (bin_ok lay n BXor m k Hn St Rd Cd Aq Cq Am Cm Aa Ca (fun _ => Hb) Hk HM Hq).
Qed.
Print Assumptions C71_arm_rawXor.

Theorem C71_arm_rawNot : forall lay n m k,
  let a := num (mem m) (xr m 1) n in let q := num (mem m) (lay Srawq) n in
  ready lay m n -> masked lay m n k -> operand m (xr m 1) n ->
  exists m', run lay None (rawBin BNot n) m = Some m' /\ kept m m' /\
    num (mem m') (xr m 0) n = (((2 ^ 64) ^ Z.of_nat n - 1 - a) mod 2 ^ k) mod q /\ outside m m' (xr m 0) n.
Proof.
  intros lay n m k a q (Hn & St & Rd & Cd & Aq & Cq) ((Am & Cm) & Hk & HM & Hq) [Aa Ca].
  exact (bin_ok lay n BNot m k Hn St Rd Cd Aq Cq Am Cm Aa Ca (fun H => False_ind _ (H eq_refl)) Hk HM Hq).
Qed.
Print Assumptions C71_arm_rawNot.

(** Non-vacuity: three words, q = 2^64 - 1 + 7 * 2^128, of 131 bits, at 4000; the mask 7 at 4104. *)
Definition binLay (s : sym) : Z := match s with Srawq => 4000 | SlboMask => 4104 | _ => 0 end.
Definition bF (x : Z) : Z := if x =? 4104 then 7 else if x =? 3008 then 2 ^ 64 - 1 else if x =? 3016 then 19 else sF x.
Definition bM : mach :=
  {| regs := regs sM'; sp := 8000; fN := false; fZ := false; fC := true; fV := false;
     mem := bF; mapd := fun x => mapd sM' x || inr 4104 1 x |}.
Example C71_hyp : ready binLay bM 3 /\ masked binLay bM 3 131 /\ operand bM (xr bM 1) 3 /\ operand bM (xr bM 2) 3.
Proof.
  assert (A : forall p, In p [2000; 3000; 3504; 4000] -> operand bM p 3).
  { intros p Hp. cbn [In] in Hp. destruct Hp as [<-|[<-|[<-|[<-|[]]]]]; (split; [|left; vm_compute; discriminate]);
      (split; [lia|split; [vm_compute; discriminate|split; [reflexivity|]]]);
      intros i Hi; destruct i as [|[|[|i]]]; try lia; vm_compute; repeat split; discriminate. }
  pose proof (A 2000 ltac:(cbn; auto)) as [A0 C0].
  split.
  { split; [lia|]. split.
    - split; [reflexivity|]. intros i Hi. do 13 (destruct i as [|i]; [try lia; reflexivity|]). lia.
    - split; [exact (area_room _ _ _ A0)|]. split; [exact C0|]. apply (A 4000). cbn. auto. }
  split.
  { split.
    - split; [|left; vm_compute; discriminate]. split; [vm_compute; discriminate|split; [vm_compute; discriminate|split; [reflexivity|]]].
      intros i Hi. destruct i; [|lia]. vm_compute. repeat split; discriminate.
    - split; [lia|]. split; [reflexivity|]. split; [reflexivity|vm_compute; discriminate]. }
  split; [apply (A 3000); cbn; auto|apply (A 3504); cbn; auto].
Qed.
(** the operands 5 + (2^64 - 1) * 2^64 + 19 * 2^128 and 9 + 6 * 2^128; the or is reduced *)
Example C71_run :
  map (fun o => option_map (fun m => map (mem m) [2000; 2008; 2016]) (run binLay None (rawBin o 3) bM)) [BAnd; BOr; BXor; BNot] =
  [Some [1; 0; 2]; Some [14; 2 ^ 64 - 2; 0]; Some [12; 2 ^ 64 - 1; 5]; Some [2 ^ 64 - 6; 0; 4]].
Proof. vm_compute. reflexivity. Qed.
