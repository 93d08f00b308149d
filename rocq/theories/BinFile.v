(** Model of class BinFile (c/binfile_utils.cpp) and of the header loaders
    (c/zkey_utils.cpp, c/wtns_utils.cpp).

    The copy of the file in memory (lines 18-20 and 70-75, ThreadUtils::parcpy is taken to copy) is the list of its
    bytes; addresses are offsets into it.  [Oob]: a read outside the copy;
    [Null]: a null pointer is followed.  Exceptions carry no data here.  The map
    of sections is an association list from types to the sections of that type
    in file order. *)
From Coq Require Import ZArith List Bool.
From Verif Require Import Bytes Multiexp.
Import ListNotations.
Open Scope Z_scope.

Inductive res (A : Type) := Ok (a : A) | Throw | Oob | Null.
Arguments Ok {A}. Arguments Throw {A}. Arguments Oob {A}. Arguments Null {A}.
Definition rbind {A B} (x : res A) (f : A -> res B) : res B := match x with Ok a => f a | Throw => Throw | Oob => Oob | Null => Null end.
Notation "'let*' x ':=' e 'in' f" := (rbind e (fun x => f)) (at level 200, x pattern, e at level 100, f at level 200).

Definition zlen (d : list Z) : Z := Z.of_nat (length d).
Definition sub (d : list Z) (pos len : Z) : list Z := firstn (Z.to_nat len) (skipn (Z.to_nat pos) d).
(** a read of [len] bytes at offset [pos] *)
Definition fetch (d : list Z) (pos len : Z) : res (list Z) := if pos + len <=? zlen d then Ok (sub d pos len) else Oob.
Fixpoint bytes_eqb (a b : list Z) : bool := match a, b with [], [] => true | x :: a, y :: b => (x =? y) && bytes_eqb a b | _, _ => false end.

Definition section := (Z * Z)%type.      (* start, size *)
Definition smap := list (Z * list section).
Fixpoint lookup (m : smap) (t : Z) : option (list section) := match m with [] => None | (t', l) :: m => if t =? t' then Some l else lookup m t end.
(** sections.insert if missing, then push_back (lines 43-48, 102-107) *)
Fixpoint push (m : smap) (t : Z) (s : section) : smap :=
  match m with [] => [(t, [s])] | (t', l) :: m => if t =? t' then (t', l ++ [s]) :: m else (t', l) :: push m t s end.
Record bin := { data : list Z; sections : smap; pos : Z; reading : option section }.

(** readU32LE, readU64LE, lines 188-200 *)
Definition get_le (k : Z) (d : list Z) (p : Z) : res (Z * Z) := let* l := fetch d p k in Ok (le_val l, w64 (p + k)).
(** lines 38-51, 97-110 *)
Fixpoint read_sections (n : nat) (d : list Z) (p : Z) (m : smap) : res smap :=
  match n with
  | O => Ok m
  | S n => let* (t, p) := get_le 4 d p in let* (size, p) := get_le 8 d p in
           read_sections n d (w64 (p + size)) (push m t (p, size))
  end.
(** constructors, lines 16-55 and 57-114 (they differ in where the bytes come
    from); [magic] has four bytes *)
Definition open_bin (d magic : list Z) (maxVersion : Z) : res bin :=
  let* t := fetch d 0 4 in
  if negb (bytes_eqb t magic) then Throw else
  let* (version, p) := get_le 4 d 4 in
  if maxVersion <? version then Throw else
  let* (nSections, p) := get_le 4 d p in
  let* m := read_sections (Z.to_nat nSections) d p [] in
  Ok {| data := d; sections := m; pos := 0; reading := None |}.
(** the checks at the start of lines 121-133, 156-168, 172-184 *)
Definition find_section (f : bin) (id k : Z) : res section :=
  match lookup (sections f) id with
  | None => Throw
  | Some l => match nth_error l (Z.to_nat k) with Some s => Ok s | None => Throw end
  end.
Definition setpos (f : bin) p : bin := {| data := data f; sections := sections f; pos := p; reading := reading f |}.
(** startReadSection, lines 121-142 *)
Definition startReadSection (f : bin) (id k : Z) : res bin :=
  let* s := find_section f id k in
  match reading f with
  | Some _ => Throw
  | None => Ok {| data := data f; sections := sections f; pos := fst s; reading := Some s |}
  end.
(** endReadSection, lines 144-154 *)
Definition endReadSection (f : bin) (check : bool) : res bin :=
  let idle := {| data := data f; sections := sections f; pos := pos f; reading := None |} in
  if check then
    match reading f with
    | None => Null
    | Some (start, size) => if negb (w64 (pos f - start) =? size) then Throw else Ok idle
    end
  else Ok idle.
(** getSectionData (the offset), getSectionSize, lines 156-186 *)
Definition getSectionData (f : bin) (id k : Z) : res Z := let* s := find_section f id k in Ok (fst s).
Definition getSectionSize (f : bin) (id k : Z) : res Z := let* s := find_section f id k in Ok (snd s).
Definition readLE (k : Z) (f : bin) : res (Z * bin) := let* (v, p) := get_le k (data f) (pos f) in Ok (v, setpos f p).
Definition readU32LE := readLE 4.
Definition readU64LE := readLE 8.
(** read, lines 202-207: returns an offset *)
Definition read (f : bin) (len : Z) : Z * bin := (pos f, setpos f (w64 (pos f + len))).

(** mpz_import(_, n, -1, 1, -1, 0, p): n bytes, least significant first *)
Definition mpz_import_le (f : bin) (n p : Z) : res Z := let* l := fetch (data f) p n in Ok (le_val l).

(** ** zkey_utils.cpp, loadHeader, lines 16-51 *)
Record zkey_header := { n8q : Z; qPrime : Z; n8r : Z; rPrime : Z; nVars : Z; nPublic : Z; domainSize : Z; nCoefs : Z;
  vk_alpha1 : Z; vk_beta1 : Z; vk_beta2 : Z; vk_gamma2 : Z; vk_delta1 : Z; vk_delta2 : Z }.
Definition zkey_load (f : bin) : res (zkey_header * bin) :=
  let* f := startReadSection f 1 0 in
  let* (protocol, f) := readU32LE f in
  if negb (protocol =? 1) then Throw else
  let* f := endReadSection f true in
  let* f := startReadSection f 2 0 in
  let* (n8q, f) := readU32LE f in
  let '(p, f) := read f n8q in
  let* q := mpz_import_le f n8q p in
  let* (n8r, f) := readU32LE f in
  let '(p, f) := read f n8r in
  let* r := mpz_import_le f n8r p in
  let* (nv, f) := readU32LE f in
  let* (np, f) := readU32LE f in
  let* (ds, f) := readU32LE f in
  let '(a1, f) := read f (w32 (n8q * 2)) in
  let '(b1, f) := read f (w32 (n8q * 2)) in
  let '(b2, f) := read f (w32 (n8q * 4)) in
  let '(g2, f) := read f (w32 (n8q * 4)) in
  let '(d1, f) := read f (w32 (n8q * 2)) in
  let '(d2, f) := read f (w32 (n8q * 4)) in
  let* f := endReadSection f true in
  let* s4 := getSectionSize f 4 0 in
  if w32 (12 + n8r) =? 0 then Null (* division by zero *) else
  Ok ({| n8q := n8q; qPrime := q; n8r := n8r; rPrime := r; nVars := nv; nPublic := np; domainSize := ds; nCoefs := s4 / w32 (12 + n8r);
         vk_alpha1 := a1; vk_beta1 := b1; vk_beta2 := b2; vk_gamma2 := g2; vk_delta1 := d1; vk_delta2 := d2 |}, f).
(** ** wtns_utils.cpp, loadHeader, lines 12-25 *)
Record wtns_header := { w_n8 : Z; w_prime : Z; w_nVars : Z }.
Definition wtns_load (f : bin) : res (wtns_header * bin) :=
  let* f := startReadSection f 1 0 in
  let* (n8, f) := readU32LE f in
  let '(p, f) := read f n8 in
  let* prime := mpz_import_le f n8 p in
  let* (nv, f) := readU32LE f in
  let* f := endReadSection f true in
  Ok ({| w_n8 := n8; w_prime := prime; w_nVars := nv |}, f).
