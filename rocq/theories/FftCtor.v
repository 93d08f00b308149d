(** Model of the constructor FFT::FFT (c/fft.cpp lines 32-115), for the field
    class of a prime q: K is Z/q, f.fromMpz reduces, f.toMpz(f.negOne()) is q-1,
    mpz_powm and mpz_invert are as GMP documents them.  Fresh cells of roots[]
    and powTwoInv[] hold whatever the memory held. *)
From Coq Require Import ZArith List Bool.
From Verif Require Import Multiexp Tower Zp Par Threads Fft.
Import ListNotations.
Open Scope Z_scope.

Section Ctor.
Variable q : Z.
Hypothesis Hq : 1 < q.
Notation K := (Zp q Hq).
Notation RT i := (Sh 1 i).
Definition powm (x e : Z) : Z := x ^ e mod q.
(** lines 53-58; None: not found within [fuel] rounds *)
Fixpoint nqr_search (fuel : nat) (x : Z) : option Z :=
  if negb (powm x ((q - 1) / 2) =? 1) then Some x else
  match fuel with O => None | S k => nqr_search k (x + 1) end.
(** lines 64-69: s and m_aux *)
Fixpoint two_adic (fuel : nat) (domainPow s aux : Z) : Z * Z :=
  match fuel with
  | O => (s, aux)
  | S k => if Z.even aux && (s <? domainPow) then two_adic k domainPow (s + 1) (Z.shiftr aux 1) else (s, aux)
  end.
(** f.exp(roots[start], roots[1], &start, 8), line 99, with Raw::exp as in
    src/fr.cpp.ejs lines 259-278; i counts the bits still to be looked at *)
Definition Ione d : instr K := Ins d [] (fun _ => r1).
Fixpoint exp_bits (th : Z) (r : addr) (e : Z) (i : nat) (oneFound : bool) : list (instr K) :=
  match i with
  | O => if oneFound then [] else [Ione r]
  | S i => let b := Z.testbit e (Z.of_nat i) in
      if oneFound then Imul K r r r :: (if b then [Imul K r r (Lo th 0)] else []) ++ exp_bits th r e i true
      else if b then Icopy K r (Lo th 0) :: exp_bits th r e i true else exp_bits th r e i false
  end.
Definition exp_code (th start : Z) : list (instr K) := Icopy K (Lo th 0) (RT 1) :: exp_bits th (RT start) start 64 false.
(** lines 93-104 *)
Definition fill_start (nRoots th nT : Z) : Z := if th =? 0 then 2 else w64 (th * (nRoots / nT)).
Definition fill_end (nRoots th nT : Z) : Z := if th =? nT - 1 then nRoots else w64 ((th + 1) * (nRoots / nT)).
Definition fill_code (nRoots th nT : Z) : list (instr K) :=
  let s := fill_start nRoots th nT in let e := fill_end nRoots th nT in
  (if s <? e then exp_code th s else []) ++ map (fun i => Imul K (RT i) (RT (i - 1)) (RT 1)) (zrange (s + 1) (Z.to_nat (e - (s + 1)))).
(** lines 109-111 *)
Definition halves_code (s : Z) : list (instr K) := map (fun i => Imul K (Sh 2 i) (Sh 2 (i - 1)) (Sh 2 1)) (zrange 2 (Z.to_nat (s - 1))).

Inductive outcome := Throws | Done (s : Z) (m : pmem K).
(** no outcome: a failed assertion, or a search that takes longer *)
Inductive ctor (fuel : nat) (nT maxDomainSize : Z) (m : pmem K) : outcome -> Prop :=
| ctor_throws : forall dp nqr, fft_log2 maxDomainSize = Some dp -> nqr_search fuel 2 = Some nqr ->
    fst (two_adic 64 dp 1 ((q - 1) / 2)) < dp -> ctor fuel nT maxDomainSize m Throws
| ctor_done : forall dp nqr s aux m1 m2, fft_log2 maxDomainSize = Some dp -> nqr_search fuel 2 = Some nqr ->
    two_adic 64 dp 1 ((q - 1) / 2) = (s, aux) -> dp <= s -> s < 63 ->
    m1 = pset (pset (pset (pset m (RT 0) r1) (Sh 2 0) r1) (RT 1) (tozp q Hq (powm nqr aux))) (Sh 2 1) (tozp q Hq (zinv q 2)) ->
    parblock K nT (fill_code (Z.shiftl 1 s)) m1 m2 ->
    rmul (m2 (RT (Z.shiftl 1 s - 1))) (m2 (RT 1)) = (r1 : K) ->
    ctor fuel nT maxDomainSize m (Done s (prun (halves_code s) m2)).
End Ctor.
