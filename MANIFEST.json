{
 "claims": [
  {
   "property": "C01",
   "status": "proved",
   "theorems": [
    "C01_rawAdd",
    "C01_rawSub",
    "C01_rawNeg"
   ],
   "note": "All aliasing patterns (pointers are arbitrary)."
  },
  {
   "property": "C02",
   "status": "proved",
   "theorems": [
    "C02_rawMMul",
    "C02_rawMSquare",
    "C02_unique"
   ],
   "note": "Both generator shapes; a any N64-limb number."
  },
  {
   "property": "C03",
   "status": "proved",
   "theorems": [
    "C03_rawMMul1",
    "C03_rawFromMontgomery",
    "C03_rawToMontgomery",
    "C03_roundtrip"
   ],
   "note": ""
  },
  {
   "property": "C04",
   "status": "partial",
   "theorems": [
    "C04_rawAddLS",
    "C04_rawSubLS",
    "C04_rawSubSL",
    "C04_rawCopyS2L",
    "C04_rawNegLS_partial",
    "C04_rawNegLS_zero_refuted",
    "C04_rawNegLS_inplace_refuted"
   ],
   "note": "False for rawNegLS when a=0 and w=0 (stores q) and when destination is the operand; proved otherwise."
  },
  {
   "property": "C05",
   "status": "proved",
   "theorems": [
    "C05_rawAnd",
    "C05_rawOr",
    "C05_rawXor",
    "C05_rawNot"
   ],
   "note": ""
  },
  {
   "property": "C06",
   "status": "partial",
   "theorems": [
    "C06_rawShl_partial",
    "C06_rawShl_inplace_refuted",
    "C06_rawShr"
   ],
   "note": "False for rawShl in place with shift >= 64 (overlapping increasing copy); proved for every other case."
  },
  {
   "property": "C07",
   "status": "proved",
   "theorems": [
    "C07_rawCmp",
    "C07_rawIsEq",
    "C07_rawIsZero",
    "C07_eval_injective",
    "C07_rawSwap"
   ],
   "note": ""
  },
  {
   "property": "C50",
   "status": "proved",
   "theorems": [
    "C50_generator",
    "C50_even_rejected"
   ],
   "note": ""
  },
  {
   "property": "C08",
   "status": "proved",
   "theorems": [
    "C08_add"
   ],
   "note": "Moduli above 2^32."
  },
  {
   "property": "C09",
   "status": "proved",
   "theorems": [
    "C09_sub"
   ],
   "note": "Moduli above 2^32."
  },
  {
   "property": "C10",
   "status": "proved",
   "theorems": [
    "C10_mul",
    "C10_square",
    "C10_small_modulus_refuted"
   ],
   "note": "All aliasing; the bound 2^62 on the modulus is needed (witness for a 41-bit modulus)."
  },
  {
   "property": "C11",
   "status": "proved",
   "theorems": [
    "C11_neg"
   ],
   "note": ""
  },
  {
   "property": "C12",
   "status": "partial",
   "theorems": [
    "C12_toNormal",
    "C12_toLongNormal",
    "C12_toMontgomery_partial",
    "C12_toMontgomery_limbs",
    "C12_toMontgomery_stale_refuted"
   ],
   "note": "toNormal and toLongNormal fully proved. False for toMontgomery of a SHORT element into another element: stale shortVal of the destination survives; proved for every other case, and the Montgomery limbs are right in all cases."
  },
  {
   "property": "C13",
   "status": "proved",
   "theorems": [
    "C13_order",
    "C13_antisym"
   ],
   "note": ""
  },
  {
   "property": "C14",
   "status": "proved",
   "theorems": [
    "C14_eq"
   ],
   "note": ""
  },
  {
   "property": "C15",
   "status": "proved",
   "theorems": [
    "C15_logic"
   ],
   "note": ""
  },
  {
   "property": "C16",
   "status": "proved",
   "theorems": [
    "C16_bits",
    "C16_bnot"
   ],
   "note": ""
  },
  {
   "property": "C17",
   "status": "proved",
   "theorems": [
    "C17_shl",
    "C17_shr"
   ],
   "note": "bitLength(q) < 2^64."
  },
  {
   "property": "C18",
   "status": "partial",
   "theorems": [
    "C18_toInt_exact_partial",
    "C18_toInt_sound_one_limb_partial",
    "C18_toInt_mod64_partial",
    "C18_toInt_refuted"
   ],
   "note": "False: for more than one limb Fr_toInt looks at the low limb only and returns wrong integers. Proved: exact whenever the value is a 32-bit integer, sound for one-limb moduli, right modulo 2^64 always."
  },
  {
   "property": "C19",
   "status": "partial",
   "theorems": [
    "C19_add_partial",
    "C19_sub_partial",
    "C19_bits_partial",
    "C19_bnot_partial",
    "C19_shl_partial",
    "C19_shr_partial",
    "C19_add_refuted",
    "C19_sub_negative_short_refuted",
    "C19_bits_refuted",
    "C19_shift_refuted"
   ],
   "note": "False (witness per operation); proved for every alias pattern outside the listed representation conditions."
  },
  {
   "property": "C20",
   "status": "proved",
   "theorems": [
    "C20_programs"
   ],
   "note": "All operations incl. in-place toMontgomery; destinations distinct from operands except where aliasing is proved safe."
  },
  {
   "property": "C21",
   "status": "proved",
   "theorems": [
    "C21_idiv",
    "C21_mod",
    "C21_pow",
    "C21_inv",
    "C21_div",
    "C21_zero_divisor"
   ],
   "note": "Every aliasing (the destination is any pointer). Zero divisors trap or are undefined: stated too."
  },
  {
   "property": "C22",
   "status": "proved",
   "theorems": [
    "C22_element2str",
    "C22_str2element",
    "C22_roundtrip"
   ],
   "note": ""
  },
  {
   "property": "C23",
   "status": "proved",
   "theorems": [
    "C23_ring",
    "C23_inv",
    "C23_div",
    "C23_embed",
    "C23_text",
    "C23_set_tiny_refuted"
   ],
   "note": "set(int) fails for q < 2^31, outside the quantifier."
  },
  {
   "property": "C24",
   "status": "partial",
   "theorems": [
    "C24_exp_partial",
    "C24_exp_huge_refuted"
   ],
   "note": "False for scalars longer than 2^28 bytes (int overflow of the bit counter); proved for all shorter ones."
  },
  {
   "property": "C25",
   "status": "partial",
   "theorems": [
    "C25_write_partial",
    "C25_read",
    "C25_roundtrip_partial",
    "C25_zero_refuted",
    "C25_large_buffer_refuted"
   ],
   "note": "False for zero (nothing is written) and for buffers larger than N64*8; proved for non-zero elements (or cleared buffer) and buffers of N64*8 bytes."
  },
  {
   "property": "C26",
   "status": "proved",
   "theorems": [
    "C26_naf"
   ],
   "note": ""
  },
  {
   "property": "C27",
   "status": "partial",
   "theorems": [
    "C27_mulByScalar_partial",
    "C27_long_scalar_refuted"
   ],
   "note": "False for scalars of 2^28 bytes or more (int overflow of the bit count); proved for all shorter ones in any abelian group."
  },
  {
   "property": "C37",
   "status": "proved",
   "theorems": [
    "C37_log2"
   ],
   "note": ""
  },
  {
   "property": "C48",
   "status": "proved",
   "theorems": [
    "C48_split",
    "C48_towers",
    "C48_numbers"
   ],
   "note": ""
  },
  {
   "property": "C49",
   "status": "partial",
   "theorems": [
    "C49_refuted",
    "C49_no_comma_partial",
    "C49_dichotomy_partial"
   ],
   "note": "False: text without a top level comma makes the splitter recurse for ever. Proved: exactly which texts diverge, and what happens otherwise."
  },
  {
   "property": "C32",
   "status": "partial",
   "theorems": [
    "C32_linear",
    "C32_mul",
    "C32_inv",
    "C32_div",
    "C32_mulXi",
    "C32_mulScalar_partial",
    "C32_square_partial",
    "C32_compare",
    "C32_square_refuted",
    "C32_mulScalar_refuted"
   ],
   "note": "False for square with nr other than -1 (wrong temporary) and for mulScalar by the destination's own first component; everything else proved for every ring, every aliasing, with frame conditions."
  },
  {
   "property": "C33",
   "status": "proved",
   "theorems": [
    "C33_linear",
    "C33_mul",
    "C33_square",
    "C33_mulTau",
    "C33_inv",
    "C33_div",
    "C33_scalars",
    "C33_compare"
   ],
   "note": "Any base ring where 1, 0, -1 are distinct (every modulus the generator accepts is odd); inverse in any field with -1 a non-square and 9+u a non-cube."
  },
  {
   "property": "C34",
   "status": "partial",
   "theorems": [
    "C34_linear",
    "C34_mul",
    "C34_square",
    "C34_inv",
    "C34_div",
    "C34_mulScalar",
    "C34_compare",
    "C34_exp_partial",
    "C34_exp_in_place",
    "C34_exp_in_place_refuted"
   ],
   "note": "False for exp in place (the base is overwritten by one); proved for every other aliasing and at most 2^28 scalar bytes."
  },
  {
   "property": "C28",
   "status": "proved",
   "theorems": [
    "C28_add",
    "C28_add_affine",
    "C28_sub",
    "C28_dbl",
    "C28_frame",
    "C28_law"
   ],
   "note": "Every field, every a and b (b non-zero for affine destinations), every aliasing, every representation of infinity. Associativity of the law itself is not part of the claim."
  },
  {
   "property": "C29",
   "status": "partial",
   "theorems": [
    "C29_sequences_partial",
    "C29_neg_refuted"
   ],
   "note": "False for neg(Point, PointAffine) of the affine infinity; proved for all sequences of all overloads otherwise, together with the points they denote."
  },
  {
   "property": "C30",
   "status": "partial",
   "theorems": [
    "C30_eq_partial",
    "C30_eq_refuted"
   ],
   "note": "False for the all-zero representation of infinity; proved for all other representations."
  },
  {
   "property": "C31",
   "status": "partial",
   "theorems": [
    "C31_copy",
    "C31_neg_partial",
    "C31_neg_refuted"
   ],
   "note": "False for neg(Point, PointAffine) of the affine infinity; proved for everything else."
  },
  {
   "property": "C35",
   "status": "proved",
   "theorems": [
    "C35_multiexp"
   ],
   "note": "Every abelian group, every schedule and thread assignment with atomic iterations (iterations on different threads touch different accumulators), 8 <= scalarSize < 2^28, n*scalarSize < 2^64, fewer than 2^48 threads."
  },
  {
   "property": "C36",
   "status": "partial",
   "theorems": [
    "C36_run_exact",
    "C36_run_partial",
    "C36_carry_refuted"
   ],
   "note": "False when a scalar exceeds the signed-digit range (carry out of the last chunk lost); the exact result is proved for all scalars, and the sum when the top two bits of each scalar are clear."
  },
  {
   "property": "C53",
   "status": "partial",
   "theorems": [
    "C53_multiexp_nx_partial",
    "C53_empty_refuted"
   ],
   "note": "False for a size of 0; proved for sizes 1..2^32."
  },
  {
   "property": "C38",
   "status": "partial",
   "theorems": [
    "C38_fft_partial",
    "C38_large",
    "C38_large_refuted"
   ],
   "note": "Proved for n up to 2^30 (every odd prime, every supported domain, every thread count, every instruction interleaving); false for n >= 2^31, where parallelFor's int range overflows although the constructor accepts the domain."
  },
  {
   "property": "C39",
   "status": "partial",
   "theorems": [
    "C39_ifft_partial",
    "C39_small_refuted"
   ],
   "note": "Both compositions proved for 4 <= n <= 2^30; false for n = 1 and n = 2 (empty parallelFor range fails an assertion) and for n >= 2^31."
  },
  {
   "property": "C40",
   "status": "proved",
   "theorems": [
    "C40_ctor",
    "C40_race_refuted",
    "C40_q2_refuted"
   ],
   "note": "Odd primes, maxDomainSize < 2^63, every thread count and interleaving of field operations. The refuted theorems record side findings (formal data race on roots[1] writing an equal value; q = 2 never terminates)."
  },
  {
   "property": "C41",
   "status": "proved",
   "theorems": [
    "C41_partition",
    "C41_balanced",
    "C41_empty",
    "C41_any_loop",
    "C41_rev",
    "C41_butterflies",
    "C41_final"
   ],
   "note": "Ranges that fit an int; empty ranges are rejected by an assertion (C41_empty). Interleaving at the level of field operations."
  },
  {
   "property": "C42",
   "status": "proved",
   "theorems": [
    "C42_exactly_once",
    "C42_progress",
    "C42_overwrite_refuted"
   ],
   "note": "Transition system of one ThreadWorker and its client, all schedules and spurious wake-ups. The refuted theorem records that submitting again without waiting can overwrite the pending task (the clients in the repository always wait)."
  },
  {
   "property": "C43",
   "status": "partial",
   "theorems": [
    "C43_partial",
    "C43_refuted"
   ],
   "note": "False: the destructor sets the stop flag and notifies without the mutex, so the notification can be lost and join never returns. Proved: what holds when no step of the destructor falls between the worker's test and its blocking."
  },
  {
   "property": "C44",
   "status": "proved",
   "theorems": [
    "C44_sections",
    "C44_payload"
   ],
   "note": "Files below 2^64 bytes, possibly followed by further bytes."
  },
  {
   "property": "C45",
   "status": "partial",
   "theorems": [
    "C45_partial",
    "C45_short_refuted",
    "C45_section_refuted"
   ],
   "note": "False: BinFile has no bounds check, truncated files are read past their end and sections may lie outside the file. Proved: rejection of wrong magic and version, safe opening of every file that contains what it declares, and that accepted files long enough for their declared sections are exactly the written ones."
  },
  {
   "property": "C46",
   "status": "partial",
   "theorems": [
    "C46_protocol_partial",
    "C46_end_refuted",
    "C46_wrap_refuted"
   ],
   "note": "The protocol is proved for every sequence of calls without undefined behaviour, with byte counts modulo 2^64; false for endReadSection without an open section (null pointer) and for lengths that wrap."
  },
  {
   "property": "C47",
   "status": "partial",
   "theorems": [
    "C47_wtns",
    "C47_zkey_partial",
    "C47_large_refuted",
    "C47_div_refuted"
   ],
   "note": "wtns: all well-formed headers. zkey: proved for n8q < 2^30 and n8r < 2^32-12, false beyond (32-bit wraps, division by zero)."
  },
  {
   "property": "C51",
   "status": "proved",
   "theorems": [
    "C51_x86_rawMMul"
   ],
   "note": "Every odd modulus and size, both shapes, through the model of the register allocator and of the instructions; also the frame (callee-saved registers, memory outside destination and own stack)."
  },
  {
   "property": "C52",
   "status": "partial",
   "theorems": [
    "C07_rawSwap",
    "C52_x86_rawSwap_behaviour",
    "C52_x86_rawSwap_iff",
    "C52_x86_rawSwap_refuted"
   ],
   "note": "False: the x86-64 version stores rbx instead of the saved word. Proved: the portable version swaps; the exact effect of the x86-64 version; it swaps exactly when every word of the first operand equals rbx."
  },
  {
   "property": "C54",
   "status": "partial",
   "theorems": [
    "C54_x86_rawMSquare",
    "C54_x86_rawMMul1_partial",
    "C54_x86_rawFromMontgomery_partial",
    "C54_x86_rawFromMontgomery_refuted",
    "C54_x86_rawMMul1_opt_refuted",
    "C54_x86_rawMMul1_refuted"
   ],
   "note": "Square proved for all sizes. rawMMul1 and rawFromMontgomery are false at 7 words (and rawMMul1 at 6 words for the unoptimised shape) because of a stale spilled word; proved for all other sizes."
  },
  {
   "property": "C55",
   "status": "proved",
   "theorems": [
    "C55_x86_rawAdd",
    "C55_x86_rawSub",
    "C55_x86_rawNeg",
    "C55_x86_rawCopy",
    "C55_x86_rawZero",
    "C55_x86_rawIsEq",
    "C55_x86_rawIsZero"
   ],
   "note": "Also shows that nothing else changes. Word-aligned operands equal to or disjoint from the destination."
  },
  {
   "property": "C56",
   "status": "proved",
   "theorems": [
    "C56_calls",
    "C56_progress",
    "C56_parallelFor"
   ],
   "note": "Transition system of all workers and the caller, on top of the ThreadWorker model. Jobs do not throw and do not use the pool; the destructor of the pool is the subject of C43."
  },
  {
   "property": "C57",
   "status": "proved",
   "theorems": [
    "C57_processChunk",
    "C57_packThreads",
    "C57_reduce",
    "C57_slices",
    "C57_chunks",
    "C57_sliced"
   ],
   "note": "Threads are instruction lists over shared cells and thread locals; one group operation, copy or store on an array element is one instruction."
  },
  {
   "property": "C58",
   "status": "partial",
   "theorems": [
    "C58_x86_toMontgomery_partial",
    "C58_x86_toNormal_partial",
    "C58_x86_toLongNormal_partial",
    "C58_x86_neg"
   ],
   "note": "Fr_neg proved for all sizes (modulus above 2^32). The conversions call rawMMul1 and rawFromMontgomery, which are false at 7 words (6 words for the unoptimised shape, see C54): proved for all other sizes."
  },
  {
   "property": "C59",
   "status": "partial",
   "theorems": [
    "C59_x86_square",
    "C59_x86_mul_partial"
   ],
   "note": "Fr_square proved for all sizes. Fr_mul calls rawMMul1, which is false at 7 words (6 for the unoptimised shape, see C54): proved for all other sizes."
  },
  {
   "property": "C60",
   "status": "partial",
   "theorems": [
    "C60_x86_add_partial",
    "C60_x86_sub_partial",
    "C60_x86_inplace_refuted",
    "C60_x86_sub_over_second_refuted"
   ],
   "note": "False in place when the overwritten operand has to be converted to Montgomery form, and for a negative short minus a long value stored over that value (both refuted with a machine run). Proved for every other aliasing and all sizes but those at which rawMMul1 is wrong (C54)."
  },
  {
   "property": "C61",
   "status": "partial",
   "theorems": [
    "C61_x86_eq_partial",
    "C61_x86_neq_partial",
    "C61_x86_lt_partial",
    "C61_x86_gt_partial",
    "C61_x86_leq_partial",
    "C61_x86_geq_partial"
   ],
   "note": "Proved for all sizes but those at which the conversions rawMMul1 and rawFromMontgomery are wrong (7 words, and 6 words in the unoptimised shape, see C54)."
  },
  {
   "property": "C62",
   "status": "proved",
   "theorems": [
    "C62_x86_land",
    "C62_x86_lor",
    "C62_x86_lnot",
    "C62_x86_isTrue"
   ],
   "note": "All sizes and any aliasing."
  },
  {
   "property": "C63",
   "status": "partial",
   "theorems": [
    "C63_x86_band_partial",
    "C63_x86_bor_partial",
    "C63_x86_bxor_partial",
    "C63_x86_bnot_partial",
    "C63_x86_inplace_refuted",
    "C63_x86_bnot_inplace_refuted"
   ],
   "note": "False in place when the overwritten operand has to be converted (refuted with machine runs). Proved for every other aliasing and all sizes but those at which the conversions rawMMul1 and rawFromMontgomery are wrong (7 words, and 6 words in the unoptimised shape, see C54)."
  },
  {
   "property": "C64",
   "status": "proved",
   "theorems": [
    "C64_x86_rawShr",
    "C64_x86_rawShl"
   ],
   "note": "Both shifts, all counts, in place or not."
  },
  {
   "property": "C65",
   "status": "partial",
   "theorems": [
    "C65_x86_shl_partial",
    "C65_x86_shr_partial"
   ],
   "note": "Proved for every aliasing by equality and all sizes but those at which the conversions rawMMul1 and rawFromMontgomery are wrong (7 words, and 6 words in the unoptimised shape, see C54), for bitLength(q) < 2^31."
  },
  {
   "property": "C66",
   "status": "partial",
   "theorems": [
    "C66_x86_toInt_partial",
    "C66_x86_toInt_fails_partial",
    "C66_x86_wrong_int_refuted",
    "C66_x86_low_limb_refuted"
   ],
   "note": "The full property is false: with two limbs or more some elements not congruent to an int are returned as one, and negative ints fail when the low limb of q is small (both refuted by machine runs). Proved: the int is returned when its negation does not exceed the low limb of q, and Fr_fail is reached when the distance to q modulo 2^64 is 0 or above 2^31; sizes at which rawFromMontgomery is wrong (C54) excluded."
  },
  {
   "property": "C67",
   "status": "partial",
   "theorems": [
    "C67_x86_copyn_partial",
    "C67_x86_int_count_refuted"
   ],
   "note": "Proved when the count is all of rdx. As the prototype has an int count, whose upper half the calling convention leaves unspecified, the property is false for the register contents it allows (refuted)."
  },
  {
   "property": "C68",
   "status": "partial",
   "theorems": [
    "C68_arm_rawCopy",
    "C68_arm_rawSwap",
    "C68_arm_rawIsZero",
    "C68_arm_rawCmp",
    "C68_arm_rawIsEq_partial",
    "C68_arm_rawIsEq_refuted"
   ],
   "note": "rawCopy, rawSwap, rawIsZero and rawCmp are proved for every width. rawIsEq is proved for every width but 7, where it ignores the four low words (refuted)."
  },
  {
   "property": "C69",
   "status": "partial",
   "theorems": [
    "C69_arm_rawAdd",
    "C69_arm_rawAddLS",
    "C69_arm_rawSub",
    "C69_arm_rawSubLS",
    "C69_arm_rawSubSL",
    "C69_arm_rawNegLS_value",
    "C69_arm_rawNegLS_partial",
    "C69_arm_rawNegLS_wrong",
    "C69_arm_rawNegLS_refuted"
   ],
   "note": "rawAdd, rawAddLS, rawSub, rawSubLS and rawSubSL are proved for all 12 widths. rawNegLS (up to 10 words) is proved to store 2q - a - b cut to n words: right for q < a + b, wrong for every other a and b (refuted)."
  },
  {
   "property": "C70",
   "status": "partial",
   "theorems": [
    "C70_arm_rawMMul",
    "C70_arm_rawMMul1",
    "C70_arm_rawFromMontgomery_even",
    "C70_arm_rawFromMontgomery_partial",
    "C70_arm_rawFromMontgomery_refuted"
   ],
   "note": "All three routines are proved for all 12 widths in both shapes of the code. For odd widths rawFromMontgomery reads one word past its operand (refuted), so its theorem asks there that this word is mapped."
  },
  {
   "property": "C71",
   "status": "proved",
   "theorems": [
    "C71_arm_rawAnd",
    "C71_arm_rawOr",
    "C71_arm_rawXor",
    "C71_arm_rawNot"
   ],
   "note": ""
  }
 ]
}