(** Concrete moduli used to show that the hypotheses of the theorems are met
    and to exhibit counterexamples. *)
From Coq Require Import ZArith List Lia Bool.
From Verif Require Import Limbs Gen Raw Spec.
Import ListNotations.
Open Scope Z_scope.

(** BN254 scalar field (the "Fr" of the library's tests): 254 bits, optimised shape. *)
Definition bn_r : Z := 21888242871839275222246405745257275088548364400416034343698204186575808495617.
(** BN254 base field. *)
Definition bn_q : Z := 21888242871839275222246405745257275088696311157297823662689037894645226208583.
(** secp256k1 base field: 256 bits, top limb all ones, non-optimised shape. *)
Definition secp_q : Z := 2 ^ 256 - 2 ^ 32 - 977.
(** A one-limb modulus. *)
Definition gold_q : Z := 2 ^ 64 - 2 ^ 32 + 1.

Definition dummy : zq := mkzq 0 false [] [] [] [] [] 0 0 0.
Definition force (o : option zq) : zq := match o with Some p => p | None => dummy end.

Definition bn_P : zq := Eval vm_compute in force (build bn_r).
Definition bnq_P : zq := Eval vm_compute in force (build bn_q).
Definition secp_P : zq := Eval vm_compute in force (build secp_q).
Definition gold_P : zq := Eval vm_compute in force (build gold_q).

Lemma bn_build : build bn_r = Some bn_P. Proof. vm_compute. reflexivity. Qed.
Lemma bnq_build : build bn_q = Some bnq_P. Proof. vm_compute. reflexivity. Qed.
Lemma secp_build : build secp_q = Some secp_P. Proof. vm_compute. reflexivity. Qed.
Lemma gold_build : build gold_q = Some gold_P. Proof. vm_compute. reflexivity. Qed.
Lemma bn_gt1 : 1 < bn_r. Proof. reflexivity. Qed.
Lemma bnq_gt1 : 1 < bn_q. Proof. reflexivity. Qed.
Lemma secp_gt1 : 1 < secp_q. Proof. reflexivity. Qed.
Lemma gold_gt1 : 1 < gold_q. Proof. reflexivity. Qed.

(** A memory in which array [U i] holds the limbs of [f i]. *)
Definition mem_of (n : nat) (f : nat -> Z) : rmem :=
  fun p => match p with U i => to_limbs n (f i) | T i => to_limbs n (Z.of_nat i * 77) end.

(** Boolean checks for the concrete cases. *)
Definition limbs_okb (n : nat) (l : list Z) : bool :=
  Nat.eqb (length l) n && forallb (fun x => (0 <=? x) && (x <? B)) l.
Lemma limbs_okb_ok n l : limbs_okb n l = true -> limbs_ok n l.
Proof.
  unfold limbs_okb. rewrite andb_true_iff, Nat.eqb_eq, forallb_forall. intros [H1 H2].
  split; [exact H1|]. apply Forall_forall. intros x Hx. specialize (H2 x Hx).
  rewrite andb_true_iff, Z.leb_le, Z.ltb_lt in H2. exact H2.
Qed.
Definition holdsb (q : Z) (n : nat) (m : rmem) (p : ptr) (v : Z) : bool :=
  limbs_okb n (m p) && (eval (m p) =? v) && (0 <=? v) && (v <? q).
Lemma holdsb_ok q n m p v : holdsb q n m p v = true -> holds q n m p v.
Proof.
  unfold holdsb. rewrite !andb_true_iff, Z.eqb_eq, Z.leb_le, Z.ltb_lt.
  intros (((H1 & H2) & H3) & H4). split; [apply limbs_okb_ok, H1|]. split; [exact H2|]. split; assumption.
Qed.
