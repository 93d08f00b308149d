# Machine-checked model of iden3/ffiasm (pinned commit in /repo)

Coq/Rocq 8.16.1, sources in `rocq/theories/` (logical name `Verif`).  Build:
`cd rocq && coq_makefile -f _CoqProject -o Makefile && make -j4`.

The project generates prime-field arithmetic (C++/assembly) from a modulus and
ships a small C++ library on top (curves, towers, FFT, multi-exponentiation,
thread pool, binary file reader).  We model the portable C++ (`*_generic`)
templates *as functions of the modulus* and the `c/` library, function by
function, and prove the properties of `properties.jsonl` for every modulus,
input, aliasing pattern, schedule or history in their quantifier.

## 1. Conventions of the model

* **Words.** Integers are `Z`; every place where C wraps is an explicit
  `mod 2^64` / `mod 2^32` or is shown in the proofs to stay in range.
* **Limb arrays** are `list Z`, little endian, base 2^64.
* **GMP** is external.  `mpn_*`, `mpz_*` functions are modelled by their
  documented contract (value semantics); this is part of the trusted base.
  `mpn_copyi` is modelled as the documented "increasing" limb copy so that
  overlapping calls have a definite (wrong) result.
* **Memory and aliasing.** A field-element memory has three maps indexed by
  pointer: `shortVal`, `type`, `longVal`.  Operations take pointers and
  return the new memory, so `r==a`, `r==b`, `a==b` are ordinary instances.
  Stack temporaries are separate pointers (`T i`) with arbitrary initial
  content.  Every result theorem states the value *and* the frame (nothing
  else changes).
* **Undefined behaviour / assertion failure** is a separate outcome (`None`
  or an error constructor), never a default value.
* **Values.** `denotes` (Spec.v) says which residue an element denotes, without
  referring to any of the operations: short forms denote `shortVal mod q`, long
  forms the limb value, Montgomery forms the `v` with `v*R = limbs (mod q)`.
* **Templates over a field or group** (`Curve<BaseField>`, `F2Field<...>`,
  `FFT<Field>`, `MSM<Curve>`...) are modelled in closed Coq sections abstracting
  over the operations, with the algebraic laws as hypotheses of the resulting
  theorems; each comes with an instance showing that the hypotheses are met.
* **Threads** (OpenMP loops, ThreadPool) are modelled by arbitrary
  interleavings / arbitrary assignment of iterations to threads.

## 2. Plan per property

| id | modelled code | proof method |
|----|---------------|--------------|
| C01,C04,C05,C06,C07 | `fr_raw_generic.cpp.ejs` raw operations over limb lists | limb value lemmas, arithmetic |
| C02,C03 | `rawMMul`, `rawMMul1`, `rawFromMontgomery`, both generator variants | induction over rows, invariant `row < 2q*2^64`, divisibility of the low limb |
| C08-C17 | `fr_generic.cpp.ejs`, all 16 representation pairs | case analysis over the raw theorems |
| C18 | `toInt` | refuted by a witness; conditional theorem for the cases that hold |
| C19 | same functions with aliased pointers | refuted by witnesses; positive theorem for the alias patterns that are safe |
| C20 | command language over elements | induction over programs |
| C21-C25 | `fr.cpp.ejs` over GMP contracts | arithmetic, Bezout, byte strings |
| C26,C27 | `naf.cpp`, `exp.hpp` | table characterised for all 1024 entries, then induction over bytes |
| C28-C31 | `curve.cpp` XYZZ formulas over an abstract field | `field`/`nsatz`-style algebra; case split on exceptional inputs |
| C32-C34 | `f2field.cpp`, `f6field.cpp`, `f12field.cpp` | `ring` over abstract fields, aliasing via component memory |
| C35,C36 | `multiexp.cpp`, `msm.cpp` over an abstract abelian group | accumulator invariants, arbitrary thread assignment |
| C37 | `misc.cpp` log2 | bit smearing lemma, 33-way computation on the smeared value |
| C38-C41 | `fft.cpp`, `misc.hpp` ThreadPool | threads as instruction lists, executions as interleavings; independent iterations commute (`ParFacts.v`), threads that share read-mostly cells (`ParOwn.v`); invariant over the stages; polynomials have few roots, so the non-residue search ends |
| C42,C43 | `misc.hpp` ThreadWorker as a transition system | inductive invariant; refutation trace for shutdown |
| C56 | `misc.hpp` ThreadPool: all workers and the caller as one transition system (`Pool.v`) | projection to the ThreadWorker model, then a cut of the event log at the returns of the calls |
| C57 | the parallel loops of `multiexp.cpp`, `msm.cpp` as instruction lists (`RaceModel.v`) | each thread has a footprint, footprints are disjoint, so interleavings equal the sequential run |
| C44-C47 | `binfile_utils.cpp`, `zkey_utils.cpp`, `wtns_utils.cpp` | writer/reader round trip; refutation witnesses |
| C48,C49 | `splitparstr.cpp` | induction over printed strings; non-termination witness |
| C50 | `buildzqfield.js`, constants | number theory |
| C51,C54 | `asmbuilder.js`, `montgomerybuilder.js`, `montgomery.asm.ejs` | the generator is modelled with its register allocator (`X86Gen.v`); the emitted code simulates commands on virtual registers (`X86Sim*.v`), which are then proved correct (`X86Mont*.v`); machine semantics `X86.v`, calling convention `X86Call.v` |
| C55 | straight-line raw routines of `add/sub/neg/copy/cmpops.asm.ejs` (`X86Raw.v`) | weakest-precondition rules per loop (`X86RawFacts*.v`) |
| C58,C59 | tagged operations of `montgomery/neg/mul/copy.asm.ejs` (`X86T.v`) | calls of the raw routines as steps on a machine state with stack, destination and data section (`X86TInv.v`), rules per instruction (`X86TFacts.v`), one case per combination of types (`X86TConv.v`, `X86TMul.v`) |
| C60 | tagged operations of `add/sub/utils.asm.ejs` (`X86T.v`) | the same with a stack frame and a temporary element for the converted operand (`X86TFrame.v`, `X86TAdd.v`) |
| C61,C62 | tagged comparisons and logical operations of `cmpops/logicalops.asm.ejs` (`X86T.v`) | loops over the limbs (`X86TLoop.v`), one case per combination of types (`X86TCmp.v`), storing the result and truth of an element (`X86TLogic.v`) |
| C63 | tagged bitwise operations of `binops.asm.ejs` 1-285 (`X86T.v`) | the limb loops and the final conditional subtraction (`X86TBitLoop.v`), one case per combination of types and signs (`X86TBit.v`) |
| C64 | raw shifts of `binops.asm.ejs` 287-475 (`X86T.v`) | limbs of a shifted number as two pieces of adjacent limbs (`X86TShiftVal.v`), the limb loops in the order in which they run (`X86TRawShift.v`) |
| C65 | tagged shifts of `binops.asm.ejs` 477-679 (`X86T.v`) | the count as the difference of two chains of limbs (`X86TShift.v`), the three outcomes of reading it and the two shifts (`X86TShift2.v`) |
| C66 | `toInt` of `copy.asm.ejs` 150-212 with `fromMont_r` of `utils.asm.ejs` (`X86TInt.v`); Fr_fail is a parameter | the chains of tests on the limbs, the temporary on the stack, the call of Fr_fail (`X86TIntFacts.v`, `X86TFinal7.v`) |
| C67 | `copyn` of `copy.asm.ejs` 89-100 (`X86Copyn.v`); `mul` and `rep movsq` as functions on machines, direction flag clear | induction on the number of words moved (`X86CopynFacts.v`) |
| C68 | `Gen_rawIsZero`, `Gen_rawIsEq`, `Gen_rawSwap`, `Gen_rawCopy`, `Gen_rawCmp` of `armbuilder.js` 1-633 (`Arm.v`: the machine, the register pool and the emitted code for every width) | induction over the words; pairs of words loaded and stored together (`ArmFacts.v`, `ArmRaw.v`, `ArmCmp.v`, `ArmZero.v`) |
| C69 | `Gen_rawAdd`, `Gen_rawSub`, `Gen_rawNegLS` of `armbuilder.js` 699-854 and 968-1029 with the saving of registers (`Arm.v`) | one lemma on chains of additions or subtractions of words in registers or memory, with a decidable condition on the register allocation that is computed for the 12 widths (`ArmChain.v`), saved registers (`ArmSave.v`), the carries and the final correction (`ArmAdd.v`, `ArmSub.v`) |
| C70 | `Gen_rawMul`, `Gen_rawMul1` of `armbuilder.js` 1277-1639 with `genCselStore` 293-307 (`ArmMul.v`) | chains of halves of products (`ArmMulChain.v`, `ArmMulAB.v`), the two halves of a row in both shapes of the code (`ArmMulRow.v`), the invariant 2^(64w) S = (low w words of a) b + M q (`ArmMulLoop.v`), the selecting store (`ArmCsel.v`), the saving of registers, some of them twice (`ArmFrame.v`), the routine with its register allocation computed per width (`ArmMulMain.v`); the shifted rows of `rawMMul1` and `rawFromMontgomery` (`ArmMulRow1.v`, `ArmMulLoop1.v`, `ArmMulMain1.v`) |
| C71 | `Gen_rawBinOp` of `armbuilder.js` 635-697 with `genLboMask` 329-334 (`ArmBin.v`) | the word-by-word operation as the operation on the numbers, the mask on the top word as mod 2^k, one subtraction of q as mod q since 2^k <= 2q, the registers checked per width (`ArmBinFacts.v`); `lboMask` is taken to hold the mask of the template (`fr_raw_arm64.s.ejs` 57) for the k bits of q |
| C52 | `rawSwap` generic and `copy.asm.ejs` | direct; refutation for the assembly version |

## 3. Trusted base

* Coq's kernel (no plugin, no axiom of ours).
* Axioms printed by `Print Assumptions`: see section 5.
* The hand translation from C++/JS/asm to Gallina (cited line by line).
* GMP contracts, C++ memory model simplifications listed per file.

## 4. Not modelled

`c/fft_old.cpp` (dead code), `c/exp2.hpp`, `c/scalar.hpp` (do not compile),
`c/pointparallelprocessor.hpp` (implementation missing), the AArch64 shifts
(the AArch64 `rawCopyS2L` is written down in `Arm.v`, but nothing is proved about it),
x86-64 rawToMontgomery as an entry of its own (it is a call of rawMMul),
`benchmark/`, test drivers, printing helpers, performance counters.

x86-64: memory is word addressed (aligned accesses only), only the flags CF, OF
and ZF exist, jumps are forward only, code is not in memory (no self-modifying
code), `call`/`ret` check nothing but the stack pointer.  In the tagged operations
(`X86T.v`) a comparison and the signed jump that follows it are one instruction,
and the return addresses pushed by inner calls are one unspecified number.

AArch64 (`Arm.v`): memory is word addressed and an access to a word that is not
mapped is a fault, the stack pointer is apart from the registers, jumps are forward
only, comments and empty lines are left out, and `adr` gives any address the layout
says.  A register taken from an empty pool (where the generator stops) is xzr.

Concurrency: the interleaving models (`Par.v`) take one field operation as one
atomic step (a torn element is not modelled); `multiexp` and MSM take one loop
iteration as one step, which C57 justifies for all their loops but initAccs.  Allocation never fails.

## 5. Assumptions

Every property theorem is followed by `Print Assumptions`; all of them print
"Closed under the global context".  (The checker also lists
`Coq.ssr.ssrunder.*`: these come with the stdlib's ssreflect files loaded by
`Lia`/`ZifyBool`; no theorem depends on them.)

## 6. Findings

Each one is a theorem `..._refuted` with a concrete witness evaluated by the
kernel, or, where marked (text), an observation from reading the source.

Raw layer (`fr_raw_generic.cpp.ejs`)
1. `Fr_rawNegLS(r, a, w)` with a = 0, w = 0 stores q, a non canonical value;
   in place (r = a) it is wrong.  C04.
2. `Fr_rawShl` in place with a shift of 64 or more is wrong (increasing copy
   over overlapping arrays).  C06.

Tagged elements (`fr_generic.cpp.ejs`)
3. `Fr_add`/`Fr_sub` in place are wrong when the overwritten operand has to be
   converted to Montgomery form first (conversion overwrites it or is applied
   to a destination that is also the other operand).  C19.
4. `Fr_sub(r, a, r)` with a negative short a and a long r is wrong.  C19.
5. `Fr_band/bor/bxor/bnot` in place are wrong for operands that must be widened
   (Montgomery, or negative short).  C19.
6. `Fr_shl/Fr_shr` in place inherit finding 2.  C19.
7. `Fr_toMontgomery(r, a)` for a SHORT a does not copy shortVal to r but tags r
   SHORTMONTGOMERY: r then denotes its own stale shortVal.  C12.
8. `Fr_toInt` compares only the lowest limb: for N64 > 1 elements congruent
   modulo 2^64 to a small integer are returned as that integer.  C18.
9. `Fr_mul` of two short operands stores the 64-bit product unreduced, which is
   wrong for moduli below 2^62.  C10.

mpz based functions and RawFr (`fr.cpp.ejs`)
10. `RawFr::toRprBE` of zero writes nothing (mpz_export of 0): the buffer keeps
    its old content and is read back as another element.  C25.
11. `RawFr::toRprBE` with a buffer larger than N64*8 pads in front, whereas
    `fromRprBE` reads the first N64*8 bytes.  C25.
12. `RawFr::exp` with more than 2^28 scalar bytes: the `int` bit counter
    overflows, the loop does not run, the result is 1.  C24.  (The overflow is
    formally undefined behaviour; the model uses two's complement wrap.)
13. `RawFr::set(int)` adds q only once and exports the absolute value: wrong for
    negative values below -q, so for moduli under 2^31.  C23.
14. Division by zero: `Fr_idiv`/`Fr_mod` trap inside GMP, `Fr_inv`, `Fr_div`,
    `RawFr::inv` ignore the result of `mpz_invert`.  C21_zero_divisor.
15. (text) `mpz_init_set_str`/`mpz_set_str` failures are not checked; the model
    returns `None` for text that is not a number.  `mpz_import` is called with
    word order 0, which GMP does not document; we take the behaviour of the
    current GMP sources (order 0 means most significant word first).

Exponentiation and text of towers
16. `nafMulByScalar` (c/naf.hpp, c/naf.cpp) with scalars of 2^28 bytes or more:
    the `int` bit count overflows and the result is the neutral element.  C27.
17. `SplitParStr::splitParStr` on text without a comma at the top level (for
    example "5") calls itself for ever; C49.  Text with unbalanced closing
    parentheses such as "())))" throws std::out_of_range.
18. `F2Field::square` for a non-residue other than -1 adds the wrong temporary
    (f2field.cpp line 165) and is wrong.  The tower only uses -1.  C32.
19. `F2Field::mulScalar(r, a, b)` with b = r.a, and `F6Field::mulScalar` with b
    one of the first two components of r, use an overwritten scalar.  C32, C33.
20. `F12Field::exp` in place always returns one.  C34.

Curves (`curve.cpp`)
21. `Curve::neg(Point&, PointAffine&)` of the affine infinity gives (0,0,1,1),
    a finite point that is not on the curve.  C29, C31.  (No caller in the
    repository.)
22. `Curve::eq` of a finite point with the infinity (0,0,0,0) is true, although
    `isZero` accepts that representation.  C30.  The operations never produce it
    from other representations (C29), but memory cleared by memset does.

Multi-exponentiation (`multiexp.cpp`, `msm.hpp`, `msm.cpp`)
23. `MSM::run` drops the carry out of the last chunk: a scalar above the largest
    integer with nChunks signed digits loses 2^(bitsPerChunk nChunks).  With 15
    points and 32-byte scalars, 2^256-1 is treated as -1.  C36 (exact result
    proved; correct when the top two bits of every scalar are clear).
24. `multiexp` with sizes (`nx`, `x[]`): a size of 0 wraps to 2^32-1 and includes
    every point of that polynomial.  C53.
25. Scalars of fewer than 8 bytes: getChunk/getBucketIndex read 8 bytes from
    before or behind the array.  C35_short.

FFT and thread pool (`fft.cpp`, `misc.hpp`)
26. `FFT::fft` for n >= 2^31: `ThreadPool::parallelFor` takes `int` bounds, so
    the range is empty or negative and an assertion fails, although the
    constructor accepts such domains (2-adicity 32 exists).  C38.
27. `FFT::ifft` for n = 1 and n = 2: `parallelFor(1, n/2)` is empty and
    `divideWork` asserts elementCount > 0 (without assertions `jobs.size() - 1`
    wraps).  C39.
28. FFT constructor: with nThreads <= nRoots < 2 nThreads (nThreads > 2), thread
    1 stores roots[1] (an equal value) while the others read it: a data race in
    the C++ sense.  C40 holds for every interleaving of whole field operations.
29. FFT constructor with q = 2 never ends.  C40.
30. `ThreadWorker`: a second submit before the previous task was taken overwrites
    it.  C42_overwrite_refuted.  (`ThreadPool` always waits.)
31. `~ThreadWorker` sets the stop flag and notifies without holding the mutex:
    when this falls between the worker's test of the predicate and its blocking,
    the notification is lost and `join` waits forever.  C43_refuted.

Files (`binfile_utils.cpp`, `zkey_utils.cpp`)
32. `BinFile` checks no bounds: files that end inside a header are read past the
    end of their copy, and sections whose declared size leaves the file are
    accepted.  C45.
33. `endReadSection()` without an open section follows a null pointer; an
    exception (failed check, `loadHeader` on another protocol) leaves the section
    open, so that no section can be started on this object afterwards except
    after `endReadSection(false)`.  C46.
34. `ZKeyUtils::loadHeader`: `n8q*2`, `n8q*4` and `12 + n8r` are 32-bit: keys with
    n8q >= 2^30 are rejected, n8r = 2^32-12 divides by zero.  C47.

x86-64 assembly (`copy.asm.ejs`, `asmbuilder.js`, `montgomerybuilder.js`)
35. `Fr_rawSwap` stores `rbx` where it should store `rcx`: the second operand is
    filled with the caller's rbx.  C52.
36. `rawFromMontgomery` with 7 words, `rawMMul1` with 7 words (optimised shape) or
    6 words (other shape): the 12th virtual register lives on the stack and is
    read without having been written (stale spill slot): the result depends on
    what was on the stack.  C54.  Hence Fr_toMontgomery, Fr_toNormal, Fr_mul of
    these sizes are proved for all other sizes only, likewise the comparisons.
    C58, C59, C60, C61.
37. The x86-64 `Fr_add` and `Fr_sub` in place: when the destination is the operand that
    has to be converted to Montgomery form, its type is overwritten before the conversion
    reads it, and unrelated limbs are taken for its value.
    `C60_x86_inplace_refuted`: -7 + 1000 and -7 - 1000 with modulus 2^64-2^32+1.
38. The x86-64 `Fr_sub` of a negative short and a long value stored over that value:
    `rawNegLS` writes its destination before it reads its operand.
    `C60_x86_sub_over_second_refuted`: -3 - 12 gives 0.
39. The x86-64 `Fr_band`, `Fr_bor`, `Fr_bxor` and `Fr_bnot` in place: when the
    overwritten operand is in Montgomery form or a short that has to be widened, the type
    of the destination is set to long before the conversion reads the operand, so its
    limbs are taken as they lie there. `C63_x86_inplace_refuted`: 12 in Montgomery form
    and 10; `C63_x86_bnot_inplace_refuted`: the complement of the short 7 is that of the
    stale limbs.
40. The x86-64 `Fr_toInt` with two limbs or more returns an int for elements that are not
    congruent to it: q - 2^64 - 5 gives -5, without calling Fr_fail.  The chain of
    subtractions only requires a borrow at each limb.  `C66_x86_wrong_int_refuted`.
41. The x86-64 `Fr_toInt` calls Fr_fail on the negative int z when -z exceeds the low limb
    of q, because the first subtraction does not borrow: -2 modulo the prime
    2^251 + 17 * 2^192 + 1.  `C66_x86_low_limb_refuted`.
42. The x86-64 `Fr_copyn` multiplies by all of rdx although its count is an int, whose
    upper half is unspecified in the register: with the count 1 and 1 in the upper half it
    overwrites what follows the destination.  `C67_x86_int_count_refuted`.
43. The AArch64 `rawIsEq` for 7 words (primes of 385 to 448 bits) ignores the four low
    words: it has three work registers, and the last one taken for words 4 to 6 is the one
    that holds the difference of words 0 to 3.  `C68_arm_rawIsEq_refuted`.
44. The AArch64 `rawNegLS` (armbuilder.js 968-1029) stores 2q - a - b, cut to n words,
    instead of -(a + b) modulo q: its two flags are set when the subtractions did not
    borrow (`cs` where the borrow is `cc`), so q is added even when q - a - b is already
    the result.  Whenever a + b <= q the result is wrong.  It computes the difference of
    a negative int and a long element (fr_generic.cpp.ejs 409).
    `C69_arm_rawNegLS_refuted`, `C69_arm_rawNegLS_wrong`.
45. The AArch64 `rawFromMontgomery` (armbuilder.js 1510-1526) loads its operand with
    `genLoadVar` into n + 1 registers, so for an odd number of words the last load is a
    pair and reads the word after the operand. The value is overwritten by zero, but the
    routine faults when the operand ends a mapped region.
    `C70_arm_rawFromMontgomery_refuted`.
