(** Model of the tagged field elements, src/fr_generic.cpp.ejs.

    An element is { int32_t shortVal; uint32_t type; uint64_t longVal[N64] }.
    The memory maps every pointer to the three fields.  [T 0] .. [T 9] are the
    stack temporaries of the functions modelled here (the C++ locals [a_m],
    [b_n], ...); their initial content is arbitrary.  Two element pointers are
    either equal or point to disjoint elements. *)
From Coq Require Import ZArith List Lia Bool.
From Verif Require Import Limbs Gen Raw.
Import ListNotations.
Open Scope Z_scope.

Record mem := mkmem { ms : ptr -> Z; mt : ptr -> Z; ml : rmem }.

(** fr.hpp.ejs: type tags *)
Definition SHORT : Z := 0.
Definition SHORTMONTGOMERY : Z := 0x40000000.
Definition LONG : Z := 0x80000000.
Definition LONGMONTGOMERY : Z := 0xC0000000.
(** [type & Fr_LONG], [type & Fr_MONTGOMERY] *)
Definition isLong (t : Z) : bool := Z.testbit t 31.
Definition isMont (t : Z) : bool := Z.testbit t 30.

Definition setT (r : ptr) (t : Z) (m : mem) : mem := mkmem (ms m) (upd (mt m) r t) (ml m).
Definition setS (r : ptr) (s : Z) (m : mem) : mem := mkmem (upd (ms m) r s) (mt m) (ml m).
Definition onL (f : rmem -> rmem) (m : mem) : mem := mkmem (ms m) (mt m) (f (ml m)).
Definition sq (f g : mem -> mem) : mem -> mem := fun m => g (f m).
Infix ">>>" := sq (at level 60, right associativity).

(** (int32_t) conversion *)
Definition to_int32 (z : Z) : Z := (z + 2 ^ 31) mod 2 ^ 32 - 2 ^ 31.
(** (uint64_t) conversion of a signed value *)
Definition to_u64 (z : Z) : Z := z mod B.
(** (int64_t) conversion *)
Definition to_int64 (z : Z) : Z := (z + 2 ^ 63) mod 2 ^ 64 - 2 ^ 63.

Section WithParams.
Variable P : zq.

(** lines 14-17 *)
Definition Fr_copy (r a : ptr) (m : mem) : mem :=
  mkmem (upd (ms m) r (ms m a)) (upd (mt m) r (mt m a)) (upd (ml m) r (ml m a)).

(** lines 19-30 *)
Definition Fr_toNormal (r a : ptr) (m : mem) : mem :=
  if mt m a =? LONGMONTGOMERY
  then (setT r LONG >>> onL (rawFromMontgomery P r a)) m
  else Fr_copy r a m.

(** lines 32-42: sign = val >> 31; if (sign) sign = ~sign; return sign != 0 *)
Definition has_mul32_overflow (v : Z) : bool :=
  let sign := Z.shiftr v 31 in
  let sign := if negb (sign =? 0) then Z.lnot sign else sign in
  negb (sign =? 0).

(** lines 51-74; rawSMul lines 44-49 *)
Definition mul_s1s2 (r a b : ptr) (m : mem) : mem :=
  let result := ms m a * ms m b in
  if has_mul32_overflow result
  then (onL (rawCopyS2L P r result) >>> setT r LONG >>> setS r 0) m
  else (setS r (to_int32 result) >>> setT r SHORT >>>
        onL (rawCopyS2L P r result) >>> setT r LONG >>> setS r 0) m.

(** lines 76-82 *)
Definition mul_l1nl2n (r a b : ptr) : mem -> mem :=
  setT r LONGMONTGOMERY >>> onL (rawMMul P r a b) >>> onL (rawMMul_c P r r (p_R3 P)).
(** lines 84-88 *)
Definition mul_l1nl2m (r a b : ptr) : mem -> mem := setT r LONG >>> onL (rawMMul P r a b).
(** lines 90-94 *)
Definition mul_l1ml2m (r a b : ptr) : mem -> mem := setT r LONGMONTGOMERY >>> onL (rawMMul P r a b).
(** lines 96-100 *)
Definition mul_l1ml2n (r a b : ptr) : mem -> mem := setT r LONG >>> onL (rawMMul P r a b).

(** the two branches shared by lines 106-115, 124-133, 142-151, 158-167:
    multiply [l] by the (possibly negative) shortVal of [s] *)
Definition mmul1_signed (r l s : ptr) (m : mem) : mem :=
  if ms m s <? 0
  then (onL (rawMMul1 P r l (to_u64 (- ms m s))) >>> onL (rawNeg P r r)) m
  else onL (rawMMul1 P r l (to_u64 (ms m s))) m.

(** lines 102-118 *)
Definition mul_l1ns2n (r a b : ptr) : mem -> mem :=
  setT r LONGMONTGOMERY >>> mmul1_signed r a b >>> onL (rawMMul_c P r r (p_R3 P)).
(** lines 120-136 *)
Definition mul_s1nl2n (r a b : ptr) : mem -> mem :=
  setT r LONGMONTGOMERY >>> mmul1_signed r b a >>> onL (rawMMul_c P r r (p_R3 P)).
(** lines 138-152 *)
Definition mul_l1ms2n (r a b : ptr) : mem -> mem := setT r LONG >>> mmul1_signed r a b.
(** lines 154-168 *)
Definition mul_s1nl2m (r a b : ptr) : mem -> mem := setT r LONG >>> mmul1_signed r b a.
(** lines 170-174 *)
Definition mul_l1ns2m (r a b : ptr) : mem -> mem := setT r LONG >>> onL (rawMMul P r a b).
(** lines 176-180 *)
Definition mul_l1ms2m (r a b : ptr) : mem -> mem := setT r LONGMONTGOMERY >>> onL (rawMMul P r a b).
(** lines 182-186 *)
Definition mul_s1ml2m (r a b : ptr) : mem -> mem := setT r LONGMONTGOMERY >>> onL (rawMMul P r a b).
(** lines 188-192 *)
Definition mul_s1ml2n (r a b : ptr) : mem -> mem := setT r LONG >>> onL (rawMMul P r a b).

(** lines 194-272 *)
Definition Fr_mul (r a b : ptr) (m : mem) : mem :=
  if isLong (mt m a) then
    if isLong (mt m b) then
      if isMont (mt m a) then
        if isMont (mt m b) then mul_l1ml2m r a b m else mul_l1ml2n r a b m
      else
        if isMont (mt m b) then mul_l1nl2m r a b m else mul_l1nl2n r a b m
    else if isMont (mt m a) then
      if isMont (mt m b) then mul_l1ms2m r a b m else mul_l1ms2n r a b m
    else
      if isMont (mt m b) then mul_l1ns2m r a b m else mul_l1ns2n r a b m
  else if isLong (mt m b) then
    if isMont (mt m a) then
      if isMont (mt m b) then mul_s1ml2m r a b m else mul_s1ml2n r a b m
    else if isMont (mt m b) then mul_s1nl2m r a b m else mul_s1nl2n r a b m
  else mul_s1s2 r a b m.

(** lines 274-294 *)
Definition Fr_toLongNormal (r a : ptr) (m : mem) : mem :=
  if isLong (mt m a) then
    if isMont (mt m a) then (onL (rawFromMontgomery P r a) >>> setT r LONG) m
    else Fr_copy r a m
  else (onL (rawCopyS2L P r (ms m a)) >>> setT r LONG >>> setS r 0) m.

(** lines 296-324: note that shortVal is only written in the long case *)
Definition Fr_toMontgomery (r a : ptr) (m : mem) : mem :=
  if isMont (mt m a) then Fr_copy r a m
  else if isLong (mt m a) then
    (setS r (ms m a) >>> onL (rawMMul_c P r a (p_R2 P)) >>> setT r LONGMONTGOMERY) m
  else if ms m a <? 0 then
    (onL (rawMMul1_c P r (p_R2 P) (to_u64 (- ms m a))) >>> onL (rawNeg P r r) >>>
     setT r SHORTMONTGOMERY) m
  else
    (onL (rawMMul1_c P r (p_R2 P) (to_u64 (ms m a))) >>> setT r SHORTMONTGOMERY) m.

(** lines 331-336 *)
Definition has_add32_overflow (v : Z) : bool :=
  let signs := Z.land (Z.shiftr v 31) 3 in (signs =? 1) || (signs =? 2).

(** lines 345-362, 535-552 and 1012-1031: store a 64-bit integer as short if it fits *)
Definition store_s (r : ptr) (v : Z) : mem -> mem :=
  if has_add32_overflow v
  then onL (rawCopyS2L P r v) >>> setT r LONG >>> setS r 0
  else setT r SHORT >>> setS r (to_int32 v).

(** lines 345-362 *)
Definition sub_s1s2 (r a b : ptr) (m : mem) : mem := store_s r (ms m a - ms m b) m.
(** lines 364-369 *)
Definition sub_l1nl2n (r a b : ptr) : mem -> mem := setT r LONG >>> onL (rawSub P r a b).
(** lines 371-379; a_m = T 0 *)
Definition sub_l1nl2m (r a b : ptr) : mem -> mem :=
  setT r LONGMONTGOMERY >>> Fr_toMontgomery (T 0) a >>> onL (rawSub P r (T 0) b).
(** lines 381-386 *)
Definition sub_l1ml2m (r a b : ptr) : mem -> mem := setT r LONGMONTGOMERY >>> onL (rawSub P r a b).
(** lines 388-396; b_m = T 1 *)
Definition sub_l1ml2n (r a b : ptr) : mem -> mem :=
  setT r LONGMONTGOMERY >>> Fr_toMontgomery (T 1) b >>> onL (rawSub P r a (T 1)).
(** lines 398-411 *)
Definition sub_s1l2n (r a b : ptr) (m : mem) : mem :=
  (setT r LONG >>>
   if 0 <=? ms m a then onL (rawSubSL P r (to_u64 (ms m a)) b)
   else onL (rawNegLS P r b (to_u64 (- ms m a)))) m.
(** lines 413-421 *)
Definition sub_l1ms2n (r a b : ptr) : mem -> mem :=
  setT r LONGMONTGOMERY >>> Fr_toMontgomery (T 1) b >>> onL (rawSub P r a (T 1)).
(** lines 423-431 *)
Definition sub_s1nl2m (r a b : ptr) : mem -> mem :=
  setT r LONGMONTGOMERY >>> Fr_toMontgomery (T 0) a >>> onL (rawSub P r (T 0) b).
(** lines 433-446 *)
Definition sub_l1ns2 (r a b : ptr) (m : mem) : mem :=
  (setT r LONG >>>
   if ms m b <? 0 then onL (rawAddLS P r a (to_u64 (- ms m b)))
   else onL (rawSubLS P r a (to_u64 (ms m b)))) m.
(** lines 448-453 *)
Definition sub_l1ms2m (r a b : ptr) : mem -> mem := setT r LONGMONTGOMERY >>> onL (rawSub P r a b).
(** lines 455-460 *)
Definition sub_s1ml2m (r a b : ptr) : mem -> mem := setT r LONGMONTGOMERY >>> onL (rawSub P r a b).

(** lines 462-526 *)
Definition Fr_sub (r a b : ptr) (m : mem) : mem :=
  if isLong (mt m a) then
    if isLong (mt m b) then
      if isMont (mt m a) then
        if isMont (mt m b) then sub_l1ml2m r a b m else sub_l1ml2n r a b m
      else if isMont (mt m b) then sub_l1nl2m r a b m else sub_l1nl2n r a b m
    else if isMont (mt m a) then
      if isMont (mt m b) then sub_l1ms2m r a b m else sub_l1ms2n r a b m
    else sub_l1ns2 r a b m
  else if isLong (mt m b) then
    if isMont (mt m b) then
      if isMont (mt m a) then sub_s1ml2m r a b m else sub_s1nl2m r a b m
    else sub_s1l2n r a b m
  else sub_s1s2 r a b m.

(** lines 535-552 *)
Definition add_s1s2 (r a b : ptr) (m : mem) : mem := store_s r (ms m a + ms m b) m.
(** lines 554-559 *)
Definition add_l1nl2n (r a b : ptr) : mem -> mem := setT r LONG >>> onL (rawAdd P r a b).
(** lines 561-569 *)
Definition add_l1nl2m (r a b : ptr) : mem -> mem :=
  setT r LONGMONTGOMERY >>> Fr_toMontgomery (T 0) a >>> onL (rawAdd P r (T 0) b).
(** lines 571-575 *)
Definition add_l1ml2m (r a b : ptr) : mem -> mem := setT r LONGMONTGOMERY >>> onL (rawAdd P r a b).
(** lines 577-585 *)
Definition add_l1ml2n (r a b : ptr) : mem -> mem :=
  setT r LONGMONTGOMERY >>> Fr_toMontgomery (T 1) b >>> onL (rawAdd P r a (T 1)).
(** lines 587-600 *)
Definition add_s1l2n (r a b : ptr) (m : mem) : mem :=
  (setT r LONG >>>
   if 0 <=? ms m a then onL (rawAddLS P r b (to_u64 (ms m a)))
   else onL (rawSubLS P r b (to_u64 (- ms m a)))) m.
(** lines 602-611 *)
Definition add_l1ms2n (r a b : ptr) : mem -> mem :=
  setT r LONGMONTGOMERY >>> Fr_toMontgomery (T 1) b >>> onL (rawAdd P r a (T 1)).
(** lines 613-621 *)
Definition add_s1nl2m (r a b : ptr) : mem -> mem :=
  setT r LONGMONTGOMERY >>> Fr_toMontgomery (T 0) a >>> onL (rawAdd P r (T 0) b).
(** lines 623-636 *)
Definition add_l1ns2 (r a b : ptr) (m : mem) : mem :=
  (setT r LONG >>>
   if 0 <=? ms m b then onL (rawAddLS P r a (to_u64 (ms m b)))
   else onL (rawSubLS P r a (to_u64 (- ms m b)))) m.
(** lines 638-643 *)
Definition add_l1ms2m (r a b : ptr) : mem -> mem := setT r LONGMONTGOMERY >>> onL (rawAdd P r a b).
(** lines 645-650 *)
Definition add_s1ml2m (r a b : ptr) : mem -> mem := setT r LONGMONTGOMERY >>> onL (rawAdd P r a b).

(** lines 652-719 *)
Definition Fr_add (r a b : ptr) (m : mem) : mem :=
  if isLong (mt m a) then
    if isLong (mt m b) then
      if isMont (mt m a) then
        if isMont (mt m b) then add_l1ml2m r a b m else add_l1ml2n r a b m
      else
        if isMont (mt m b) then add_l1nl2m r a b m else add_l1nl2n r a b m
    else if isMont (mt m a) then
      if isMont (mt m b) then add_l1ms2m r a b m else add_l1ms2n r a b m
    else add_l1ns2 r a b m
  else if isLong (mt m b) then
    if isMont (mt m b) then
      if isMont (mt m a) then add_s1ml2m r a b m else add_s1nl2m r a b m
    else add_s1l2n r a b m
  else add_s1s2 r a b m.

(** lines 721-735 *)
Definition Fr_isTrue (a : ptr) (m : mem) : Z :=
  if isLong (mt m a) then (if rawIsZero a (ml m) =? 0 then 1 else 0)
  else (if ms m a =? 0 then 0 else 1).

(** lines 737-756.  [None]: Fr_longErr -> Fr_fail -> assert(false) *)
Definition Fr_longNeg (a : ptr) (m : mem) : option Z :=
  if mpn_cmp (ml m a) (p_q P) >=? 0 then None
  else let result := to_int64 (get (ml m a) 0 - get (p_q P) 0) in
       let is_long := Z.shiftr result 31 + 1 in
       if negb (is_long =? 0) then None else Some (to_int32 result).

(** lines 758-778 *)
Definition Fr_longNormal (a : ptr) (m : mem) : option Z :=
  let result := get (ml m a) 0 in
  if negb (Z.shiftr result 31 =? 0) then Fr_longNeg a m
  else if negb (forallb (fun x => x =? 0) (tl (ml m a))) then Fr_longNeg a m
  else Some (to_int32 result).

(** lines 781-805; e_n = T 0 *)
Definition Fr_toInt (a : ptr) (m : mem) : option Z :=
  if isLong (mt m a) then
    if isMont (mt m a) then Fr_longNormal (T 0) (Fr_toNormal (T 0) a m)
    else Fr_longNormal a m
  else Some (ms m a).

(** *** Order comparisons, lines 807-998 and 1218-1403 *)

(** lines 812-817 / 1223-1228 *)
Definition rltRawL1L2 (a b : ptr) (m : rmem) : Z := if rawCmp b a m >? 0 then 1 else 0.
Definition rgtRawL1L2 (a b : ptr) (m : rmem) : Z := if rawCmp b a m <? 0 then 1 else 0.
(** rawCmp(half, x) *)
Definition cmp_half (b : ptr) (m : rmem) : Z := mpn_cmp (p_half P) (m b).
(** lines 819-829 / 1230-1239 *)
Definition rltl1l2_n1 (a b : ptr) (m : rmem) : Z := if cmp_half b m <? 0 then rltRawL1L2 a b m else 1.
Definition rgtl1l2_n1 (a b : ptr) (m : rmem) : Z := if cmp_half b m <? 0 then rgtRawL1L2 a b m else 0.
(** lines 831-841 / 1241-1250 *)
Definition rltl1l2_p1 (a b : ptr) (m : rmem) : Z := if cmp_half b m <? 0 then 0 else rltRawL1L2 a b m.
Definition rgtl1l2_p1 (a b : ptr) (m : rmem) : Z := if cmp_half b m <? 0 then 1 else rgtRawL1L2 a b m.
(** lines 843-853 / 1252-1262 *)
Definition rltL1L2 (a b : ptr) (m : rmem) : Z :=
  if cmp_half a m <? 0 then rltl1l2_n1 a b m else rltl1l2_p1 a b m.
Definition rgtL1L2 (a b : ptr) (m : rmem) : Z :=
  if cmp_half a m <? 0 then rgtl1l2_n1 a b m else rgtl1l2_p1 a b m.

(** lines 855-983 and 1264-1388.  The two sets of case functions are the same
    text with rlt replaced by rgt, so the model takes the limb comparison
    [cmpL] and the short comparison [cmpS] as arguments; a_n = T 0, b_n = T 1. *)
Definition rcmp (cmpL : ptr -> ptr -> rmem -> Z) (cmpS : Z -> Z -> bool) (a b : ptr) (m : mem) : Z :=
  if isLong (mt m a) then
    if isLong (mt m b) then
      if isMont (mt m a) then
        if isMont (mt m b) then
          cmpL (T 0) (T 1) (ml ((Fr_toNormal (T 0) a >>> Fr_toNormal (T 1) b) m))
        else cmpL (T 0) b (ml (Fr_toNormal (T 0) a m))
      else if isMont (mt m b) then cmpL a (T 1) (ml (Fr_toNormal (T 1) b m))
      else cmpL a b (ml m)
    else if isMont (mt m a) then
      cmpL (T 0) (T 1) (ml ((Fr_toLongNormal (T 1) b >>> Fr_toNormal (T 0) a) m))
    else cmpL a (T 1) (ml (Fr_toLongNormal (T 1) b m))
  else if isLong (mt m b) then
    if isMont (mt m b) then
      cmpL (T 0) (T 1) (ml ((Fr_toLongNormal (T 0) a >>> Fr_toNormal (T 1) b) m))
    else cmpL (T 0) b (ml (Fr_toLongNormal (T 0) a m))
  else if cmpS (ms m a) (ms m b) then 1 else 0.

Definition Fr_rlt (a b : ptr) (m : mem) : Z := rcmp rltL1L2 Z.ltb a b m.
Definition Fr_rgt (a b : ptr) (m : mem) : Z := rcmp rgtL1L2 Z.gtb a b m.

(** r->shortVal = v; r->type = Fr_SHORT *)
Definition set_short (r : ptr) (v : Z) : mem -> mem := setS r v >>> setT r SHORT.

(** lines 985-989, 991-998, 1390-1394, 1396-1403 *)
Definition Fr_lt (r a b : ptr) (m : mem) : mem := set_short r (Fr_rlt a b m) m.
Definition Fr_geq (r a b : ptr) (m : mem) : mem := set_short r (Z.lxor (Fr_rlt a b m) 1) m.
Definition Fr_gt (r a b : ptr) (m : mem) : mem := set_short r (Fr_rgt a b m) m.
Definition Fr_leq (r a b : ptr) (m : mem) : mem := set_short r (Z.lxor (Fr_rgt a b m) 1) m.

(** lines 1007-1033 *)
Definition Fr_neg (r a : ptr) (m : mem) : mem :=
  if isLong (mt m a) then (setT r (mt m a) >>> setS r (ms m a) >>> onL (rawNeg P r a)) m
  else store_s r (- ms m a) m.

(** lines 1035-1038 *)
Definition reqL1L2 (a b : ptr) (m : rmem) : Z := if rawCmp b a m =? 0 then 1 else 0.

(** lines 1040-1158 *)
Definition Fr_req (a b : ptr) (m : mem) : Z :=
  if isLong (mt m a) then
    if isLong (mt m b) then
      if isMont (mt m a) then
        if isMont (mt m b) then reqL1L2 a b (ml m)
        else reqL1L2 a (T 1) (ml (Fr_toMontgomery (T 1) b m))
      else if isMont (mt m b) then reqL1L2 (T 0) b (ml (Fr_toMontgomery (T 0) a m))
      else reqL1L2 a b (ml m)
    else if isMont (mt m a) then reqL1L2 a (T 1) (ml (Fr_toMontgomery (T 1) b m))
    else reqL1L2 a (T 1) (ml (Fr_toLongNormal (T 1) b m))
  else if isLong (mt m b) then
    if isMont (mt m b) then reqL1L2 (T 0) b (ml (Fr_toMontgomery (T 0) a m))
    else reqL1L2 (T 0) b (ml (Fr_toLongNormal (T 0) a m))
  else if ms m a =? ms m b then 1 else 0.

(** lines 1160-1172 *)
Definition Fr_eq (r a b : ptr) (m : mem) : mem := set_short r (Fr_req a b m) m.
Definition Fr_neq (r a b : ptr) (m : mem) : mem := set_short r (Z.lxor (Fr_req a b m) 1) m.

(** is_true_a of lines 1177-1199 and 1408-1430 *)
Definition truth (a : ptr) (m : mem) : Z :=
  if isLong (mt m a) then (if rawIsZero a (ml m) =? 0 then 1 else 0)
  else (if ms m a =? 0 then 0 else 1).
(** lines 1175-1201, 1406-1432, 1203-1215 *)
Definition Fr_lor (r a b : ptr) (m : mem) : mem := set_short r (Z.lor (truth a m) (truth b m)) m.
Definition Fr_land (r a b : ptr) (m : mem) : mem := set_short r (Z.land (truth a m) (truth b m)) m.
Definition Fr_lnot (r a : ptr) (m : mem) : mem :=
  set_short r (if isLong (mt m a) then rawIsZero a (ml m) else (if ms m a =? 0 then 1 else 0)) m.

(** *** Bitwise operations, lines 1434-1623, 1986-2174, 2176-2363.
    The three groups are the same text with rawAnd/rawOr/rawXor and &,|,^
    exchanged; the model takes them as [rop] and [sop].  a_n = T 0, b_n = T 1. *)
Section Bit.
Variable rop : ptr -> ptr -> ptr -> rmem -> rmem.
Variable sop : Z -> Z -> Z.

(** x_n = {0, 0, {(uint64_t)x->shortVal}}  or  toLongNormal(&x_n, x) *)
Definition widen (t x : ptr) (m : mem) : mem :=
  if 0 <=? ms m x
  then mkmem (upd (ms m) t 0) (upd (mt m) t 0)
             (upd (ml m) t (to_u64 (ms m x) :: repeat 0 (p_n64 P - 1)))
  else Fr_toLongNormal t x m.

Definition bit_s1s2 (r a b : ptr) (m : mem) : mem :=
  if (0 <=? ms m a) && (0 <=? ms m b)
  then (setS r (sop (ms m a) (ms m b)) >>> setT r SHORT) m
  else (setT r LONG >>> Fr_toLongNormal (T 0) a >>> Fr_toLongNormal (T 1) b >>>
        onL (rop r (T 0) (T 1))) m.
Definition bit_l1nl2n (r a b : ptr) : mem -> mem := setT r LONG >>> onL (rop r a b).
Definition bit_l1nl2m (r a b : ptr) : mem -> mem :=
  setT r LONG >>> Fr_toNormal (T 1) b >>> onL (rop r a (T 1)).
Definition bit_l1ml2m (r a b : ptr) : mem -> mem :=
  setT r LONG >>> Fr_toNormal (T 0) a >>> Fr_toNormal (T 1) b >>> onL (rop r (T 0) (T 1)).
Definition bit_l1ml2n (r a b : ptr) : mem -> mem :=
  setT r LONG >>> Fr_toNormal (T 0) a >>> onL (rop r (T 0) b).
Definition bit_s1l2n (r a b : ptr) : mem -> mem :=
  setT r LONG >>> widen (T 0) a >>> onL (rop r (T 0) b).
Definition bit_l1ms2 (r a b : ptr) : mem -> mem :=
  setT r LONG >>> Fr_toNormal (T 0) a >>> widen (T 1) b >>> onL (rop r (T 1) (T 0)).
Definition bit_s1l2m (r a b : ptr) : mem -> mem :=
  setT r LONG >>> Fr_toNormal (T 1) b >>> widen (T 0) a >>> onL (rop r (T 0) (T 1)).
Definition bit_l1ns2 (r a b : ptr) : mem -> mem :=
  setT r LONG >>> widen (T 1) b >>> onL (rop r a (T 1)).

Definition Fr_bit (r a b : ptr) (m : mem) : mem :=
  if isLong (mt m a) then
    if isLong (mt m b) then
      if isMont (mt m a) then
        if isMont (mt m b) then bit_l1ml2m r a b m else bit_l1ml2n r a b m
      else if isMont (mt m b) then bit_l1nl2m r a b m else bit_l1nl2n r a b m
    else if isMont (mt m a) then bit_l1ms2 r a b m else bit_l1ns2 r a b m
  else if isLong (mt m b) then
    if isMont (mt m b) then bit_s1l2m r a b m else bit_s1l2n r a b m
  else bit_s1s2 r a b m.
End Bit.

(** lines 1573-1623, 2124-2174, 2313-2363 *)
Definition Fr_band : ptr -> ptr -> ptr -> mem -> mem := Fr_bit (rawAnd P) Z.land.
Definition Fr_bor : ptr -> ptr -> ptr -> mem -> mem := Fr_bit (rawOr P) Z.lor.
Definition Fr_bxor : ptr -> ptr -> ptr -> mem -> mem := Fr_bit (rawXor P) Z.lxor.

(** lines 2365-2390: the type of r is written first *)
Definition Fr_bnot (r a : ptr) (m : mem) : mem :=
  let m1 := setT r LONG m in
  if mt m1 a =? LONG then
    if isMont (mt m1 a) then (Fr_toNormal (T 0) a >>> onL (rawNot P r (T 0))) m1
    else onL (rawNot P r a) m1
  else (Fr_toLongNormal (T 0) a >>> onL (rawNot P r (T 0))) m1.

(** *** Shifts, lines 1630-1942 *)
(** lines 1630-1645 and 1647-1662 *)
Definition srawShl (r a : ptr) (b : Z) (m : rmem) : rmem :=
  if b =? 0 then rawCopy r a m
  else if p_bits P <=? b then rawZero P r m
  else rawShl P r a b m.
Definition srawShr (r a : ptr) (b : Z) (m : rmem) : rmem :=
  if b =? 0 then rawCopy r a m
  else if p_bits P <=? b then rawZero P r m
  else rawShr P r a b m.
(** lines 1664-1668 *)
Definition setzero (r : ptr) : mem -> mem := setT r 0 >>> setS r 0.
(** lines 1670-1677 *)
Definition do_shlcl (r a : ptr) (b : Z) : mem -> mem :=
  Fr_toLongNormal (T 0) a >>> setT r LONG >>> onL (srawShl r (T 0) b).
(** lines 1679-1683 *)
Definition do_shlln (r a : ptr) (b : Z) : mem -> mem := setT r LONG >>> onL (srawShl r a b).
(** lines 1685-1734 *)
Definition do_shl (r a : ptr) (b : Z) (m : mem) : mem :=
  if isLong (mt m a) then
    if mt m a =? LONGMONTGOMERY then (Fr_toNormal (T 0) a >>> do_shlln r (T 0) b) m
    else do_shlln r a b m
  else if ms m a =? 0 then setzero r m
  else if ms m a <? 0 then do_shlcl r a b m
  else if 31 <=? b then do_shlcl r a b m
  else let v := ms m a * 2 ^ b in
       if negb (Z.shiftr v 31 =? 0) then do_shlcl r a b m
       else (setT r SHORT >>> setS r (to_int32 v)) m.
(** lines 1736-1740 *)
Definition do_shrln (r a : ptr) (b : Z) : mem -> mem := setT r LONG >>> onL (srawShr r a b).
(** lines 1742-1755; a_long = T 1 *)
Definition do_shrl (r a : ptr) (b : Z) (m : mem) : mem :=
  if mt m a =? LONGMONTGOMERY then (Fr_toNormal (T 1) a >>> do_shrln r (T 1) b) m
  else do_shrln r a b m.
(** lines 1757-1790; a_long = T 0 *)
Definition do_shr (r a : ptr) (b : Z) (m : mem) : mem :=
  if isLong (mt m a) then do_shrl r a b m
  else if ms m a =? 0 then setzero r m
  else if ms m a <? 0 then (Fr_toLongNormal (T 0) a >>> do_shrl r (T 0) b) m
  else if 31 <=? b then setzero r m
  else (setS r (to_int32 (Z.shiftr (ms m a) b)) >>> setT r SHORT) m.

(** static max_shift = {bitLength} *)
Definition max_shift : list Z := p_bits P :: repeat 0 (p_n64 P - 1).

(** lines 1792-1808 / 1868-1884; shift = T 3 (a raw array), [k] the shift in
    the opposite direction *)
Definition big_shift (k : ptr -> ptr -> Z -> mem -> mem) (r a b : ptr) (m : mem) : mem :=
  let m1 := onL (rawSubRegular_q P (T 3) b) m in
  if mpn_cmp (ml m1 (T 3)) max_shift >=? 0 then setzero r m1
  else k r a (get (ml m1 (T 3)) 0) m1.
(** lines 1810-1822 / 1886-1898 *)
Definition shift_long (fwd bwd : ptr -> ptr -> Z -> mem -> mem) (r a b : ptr) (m : mem) : mem :=
  if mpn_cmp (ml m b) max_shift >=? 0 then big_shift bwd r a b m
  else fwd r a (get (ml m b) 0) m.
(** lines 1824-1866 / 1900-1942; b_long = T 2.  Both functions are the same
    text with the directions exchanged. *)
Definition shift (fwd bwd : ptr -> ptr -> Z -> mem -> mem) (r a b : ptr) (m : mem) : mem :=
  if isLong (mt m b) then
    if mt m b =? LONGMONTGOMERY then (Fr_toNormal (T 2) b >>> shift_long fwd bwd r a (T 2)) m
    else shift_long fwd bwd r a b m
  else if ms m b <? 0 then
    if p_bits P <=? - ms m b then setzero r m else bwd r a (- ms m b) m
  else if p_bits P <=? ms m b then setzero r m
  else fwd r a (ms m b) m.
Definition Fr_shr : ptr -> ptr -> ptr -> mem -> mem := shift do_shr do_shl.
Definition Fr_shl : ptr -> ptr -> ptr -> mem -> mem := shift do_shl do_shr.

(** lines 1944-1984 *)
Definition Fr_square (r a : ptr) (m : mem) : mem :=
  if isLong (mt m a) then
    if mt m a =? LONGMONTGOMERY
    then (setT r LONGMONTGOMERY >>> onL (rawMSquare P r a)) m
    else (setT r LONGMONTGOMERY >>> onL (rawMSquare P r a) >>> onL (rawMMul_c P r r (p_R3 P))) m
  else mul_s1s2 r a a m.

End WithParams.
