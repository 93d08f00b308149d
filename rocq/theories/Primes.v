(** Prime moduli for the examples: one limb (gold_q) and two limbs (two_q).
    Pocklington certificates found outside Coq, checked here.  (The 254-bit
    moduli bn_r and bn_q are not proved prime here: no theorem needs it, and
    checking the certificates without the VM is too slow.) *)
From Coq Require Import ZArith List Znumtheory.
From Verif Require Import Gen NumTheory Instances.
Import ListNotations.
Open Scope Z_scope.

Lemma prime_2 : prime 2. Proof. apply trial_prime; [reflexivity|vm_compute; reflexivity]. Qed.
Lemma gold_prime : prime gold_q.
Proof.
  apply (pocklington 18446744069414584321 [(2, 32, 7)]); [|vm_cast_no_check (eq_refl true)].
  repeat (apply Forall_cons; [exact prime_2|]). apply Forall_nil.
Qed.

Definition two_q : Z := 165 * 2 ^ 100 + 1.
Definition two_P : zq := Eval vm_compute in force (build two_q).
Lemma two_build : build two_q = Some two_P. Proof. vm_compute. reflexivity. Qed.
Lemma two_prime : prime two_q.
Proof.
  apply (pocklington 209162349037657851246956028887041 [(2, 100, 13)]); [|vm_cast_no_check (eq_refl true)].
  repeat (apply Forall_cons; [exact prime_2|]). apply Forall_nil.
Qed.
