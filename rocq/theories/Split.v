(** Model of c/splitparstr.cpp, and of the text part of F2Field/F6Field/F12Field
    fromString and toString.  Strings are lists of character codes; counters are
    unbounded (the code uses 32-bit ones: strings shorter than 2^31). *)
From Coq Require Import ZArith List Bool.
Import ListNotations.
Open Scope Z_scope.

Definition str := list Z.
Definition LP : Z := 40.   (* '(' *)
Definition RP : Z := 41.   (* ')' *)
Definition COMMA : Z := 44.
(** s[i]; s[length] is the terminating 0, larger indices are never used (lemma in SplitFacts) *)
Definition ch (s : str) (i : nat) : Z := nth i s 0.
Definition isspace (c : Z) : bool := (c =? 32) || ((9 <=? c) && (c <=? 13)).

(** removePars, line 6: the while loop; [fuel] turns, length + 1 is enough (count_exit) *)
Fixpoint count_pars (fuel ns : nat) (s : str) : nat :=
  match fuel with
  | O => ns
  | S f => if (ns * 2 <=? length s)%nat && (ch s ns =? LP) && (ch s (length s - 1 - ns) =? RP)
           then count_pars f (S ns) s else ns
  end.
(** lines 10-14 over the characters visited *)
Fixpoint scan (l : str) (ins minIns : Z) : Z :=
  match l with
  | [] => minIns
  | c :: l => let ins := if c =? LP then ins + 1 else ins in
              let ins := if c =? RP then ins - 1 else ins in
              scan l ins (if ins <? minIns then ins else minIns)
  end.
(** lines 4-17.  None: std::out_of_range from erase.  (A negative ns + minIns is
    a huge unsigned number: everything is erased, then the position of the
    second erase is out of range.) *)
Definition removePars (s : str) : option str :=
  let ns := count_pars (S (length s)) 0 s in
  let minIns := scan (firstn (length s - ns * 2 - ns) (skipn ns s)) 0 0 in
  let k := Z.of_nat ns + minIns in
  if k <? 0 then None else
  let s1 := skipn (Z.to_nat k) s in
  if (length s1 <? Z.to_nat k)%nat then None else Some (firstn (length s1 - Z.to_nat k) s1).

(** lines 25-47: result list.  [scaped] is never set. *)
Fixpoint split_loop (s : str) (acc : str) (nPar : Z) (res : list str) : option (list str) :=
  match s with
  | [] => match removePars acc with Some a => Some (res ++ [a]) | None => None end
  | c :: s =>
      if isspace c then split_loop s acc nPar res else
      if (c =? COMMA) && (nPar =? 0) then
        match removePars acc with Some a => split_loop s [] nPar (res ++ [a]) | None => None end
      else
        let nPar := if c =? LP then nPar + 1 else nPar in
        let nPar := if c =? RP then nPar - 1 else nPar in
        split_loop s (acc ++ [c]) nPar res
  end.

Inductive outcome (A : Type) := Ok (a : A) | Throw | Running.
Arguments Ok {A}. Arguments Throw {A}. Arguments Running {A}.

(** lines 19-54; [Running] after [fuel] nested calls *)
Fixpoint splitParStr (fuel : nat) (s : str) : outcome (list str) :=
  match fuel with
  | O => Running
  | S f =>
      match split_loop s [] 0 [] with
      | None => Throw
      | Some [x] => match removePars x with Some y => splitParStr f y | None => Throw end
      | Some res => Ok res
      end
  end.

(** f2field.cpp 43-57, f6field.cpp 39-58, f12field.cpp 27-41: the strings handed
    to the next field (assert failures are Throw). *)
Definition from2 (fuel : nat) (s : str) : outcome (str * str) :=
  match splitParStr fuel s with Ok [a; b] => Ok (a, b) | Ok _ => Throw | Throw => Throw | Running => Running end.
Definition from3 (fuel : nat) (s : str) : outcome (str * str * str) :=
  match splitParStr fuel s with Ok [a; b; c] => Ok (a, b, c) | Ok _ => Throw | Throw => Throw | Running => Running end.
Definition bind {A B} (o : outcome A) (f : A -> outcome B) : outcome B :=
  match o with Ok a => f a | Throw => Throw | Running => Running end.
Definition F2_fromString := from2.
Definition F6_fromString (fuel : nat) (s : str) : outcome ((str * str) * (str * str) * (str * str)) :=
  bind (from3 fuel s) (fun '(x, y, z) =>
  bind (F2_fromString fuel x) (fun a => bind (F2_fromString fuel y) (fun b => bind (F2_fromString fuel z) (fun c => Ok (a, b, c))))).
Definition F12_fromString (fuel : nat) (s : str) :=
  bind (from2 fuel s) (fun '(x, y) =>
  bind (F6_fromString fuel x) (fun a => bind (F6_fromString fuel y) (fun b => Ok (a, b)))).

Definition tup2 (a b : str) : str := [LP] ++ a ++ [COMMA] ++ b ++ [RP].
Definition tup3 (a b c : str) : str := [LP] ++ a ++ [COMMA] ++ b ++ [COMMA] ++ c ++ [RP].
Definition F2_toString (e : str * str) : str := tup2 (fst e) (snd e).
Definition F6_toString (e : (str * str) * (str * str) * (str * str)) : str :=
  let '(x, y, z) := e in tup3 (F2_toString x) (F2_toString y) (F2_toString z).
Definition F12_toString (e : ((str * str) * (str * str) * (str * str)) * ((str * str) * (str * str) * (str * str))) : str :=
  tup2 (F6_toString (fst e)) (F6_toString (snd e)).
