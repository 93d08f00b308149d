{"id": "C01", "title": "Raw add, sub and neg are exact modular arithmetic", "statement": "For canonical inputs (limb arrays whose value is below q), Fr_rawAdd, Fr_rawSub and Fr_rawNeg store the canonical representative of a+b, a-b and -a modulo q, leave every other operand unchanged, and do so also when the destination is one of the operands.", "quantifier": "every odd modulus q, every limb count, every pair of canonical inputs, every aliasing pattern", "why_tests_cant": "The input space is (2^254)^2 per prime and the interesting carries/borrows across limbs are sparse; tests sample a handful of values and never alias the destination.", "anchors": ["src/fr_raw_generic.cpp.ejs: Fr_rawAdd, Fr_rawSub, Fr_rawNeg"]}
{"id": "C02", "title": "Montgomery multiplication is exact", "statement": "Fr_rawMMul(r,a,b) (and Fr_rawMSquare) stores the unique value below q that is congruent to a*b*2^(-64*N64) modulo q, whenever b is canonical and a is any N64-limb number, in both code shapes the generator emits (with and without the high-bit-free optimisation).", "quantifier": "every odd modulus q, every limb count N64>=1, every a below 2^(64*N64), every b below q, both generator variants", "why_tests_cant": "A dropped carry in an intermediate row shows up for a vanishing fraction of operands; no sampling reaches all carry combinations, let alone all primes the generator accepts.", "anchors": ["src/fr_raw_generic.cpp.ejs: Fr_rawMMul, Fr_rawMSquare", "src/buildzqfield.js: ZqBuilder.canOptimizeConsensys"]}
{"id": "C03", "title": "Montgomery one-limb multiplication and conversions are exact and inverse", "statement": "Fr_rawMMul1(r,a,w) stores a*w*2^(-64*N64) mod q for canonical a and any 64-bit word w; Fr_rawFromMontgomery(r,a) stores a*2^(-64*N64) mod q for any limb array a; Fr_rawToMontgomery stores a*2^(64*N64) mod q; converting to Montgomery form and back returns a mod q.", "quantifier": "every odd modulus, every limb count, every input, both generator variants", "why_tests_cant": "Same carry sparsity as multiplication; a round trip can pass on all tested values and fail on one in 2^64.", "anchors": ["src/fr_raw_generic.cpp.ejs: Fr_rawMMul1, Fr_rawFromMontgomery, Fr_rawToMontgomery"]}
{"id": "C04", "title": "Raw mixed-width operations are exact modular arithmetic", "statement": "Fr_rawAddLS, Fr_rawSubLS, Fr_rawSubSL, Fr_rawNegLS and Fr_rawCopyS2L compute a+w, a-w, w-a, -a-w and (signed 64-bit) w modulo q, provided the word is below q in absolute value.", "quantifier": "every odd modulus, every canonical a, every word below q", "why_tests_cant": "Boundary words (0, 2^31, 2^63, q-1 in the low limb) interact with every value of the other limbs.", "anchors": ["src/fr_raw_generic.cpp.ejs: Fr_rawAddLS, Fr_rawSubLS, Fr_rawSubSL, Fr_rawNegLS, Fr_rawCopyS2L"]}
{"id": "C05", "title": "Raw bitwise operations match integer bit operations", "statement": "Fr_rawAnd, Fr_rawOr, Fr_rawXor and Fr_rawNot store (a op b) truncated to bitLength(q) bits and reduced modulo q, for every aliasing of destination and operands.", "quantifier": "every odd modulus, every pair of limb arrays, every aliasing pattern", "why_tests_cant": "Correctness of the single conditional subtraction depends on the mask bound for every modulus bit length, including multiples of 64.", "anchors": ["src/fr_raw_generic.cpp.ejs: Fr_rawAnd, Fr_rawOr, Fr_rawXor, Fr_rawNot", "src/fr_raw_generic.cpp.ejs: lboMask"]}
{"id": "C06", "title": "Raw shifts match integer shifts", "statement": "For 0 <= s < bitLength(q), Fr_rawShl stores (a*2^s mod 2^bitLength(q)) mod q and Fr_rawShr stores floor(a/2^s), for all a.", "quantifier": "every odd modulus, every limb array a, every shift below the bit length, every aliasing pattern", "why_tests_cant": "Word/bit split of the shift crosses with the limb count and with whether the destination is the source; tests always use a fresh destination.", "anchors": ["src/fr_raw_generic.cpp.ejs: Fr_rawShl, Fr_rawShr"]}
{"id": "C07", "title": "Raw comparisons decide integer order", "statement": "Fr_rawCmp returns a negative, zero or positive number exactly as a<b, a=b, a>b as integers; Fr_rawIsEq and Fr_rawIsZero decide equality and zero; Fr_rawSwap exchanges the two values and nothing else.", "quantifier": "every pair of limb arrays of every length", "why_tests_cant": "Needs all values of all limbs.", "anchors": ["src/fr_raw_generic.cpp.ejs: Fr_rawCmp, Fr_rawIsEq, Fr_rawIsZero, Fr_rawSwap"]}
{"id": "C08", "title": "Field addition over all representations", "statement": "Fr_add(r,a,b) stores a well-formed element whose value is (a+b) mod q, for each of the 16 combinations of short / short-Montgomery / long / long-Montgomery operands, and changes nothing but r; r distinct from a and b.", "quantifier": "every modulus above 2^62, every pair of well-formed elements in every representation, stale contents of r arbitrary", "why_tests_cant": "16 representation pairs times all values, with 32-bit overflow corner cases, times whatever r contained before.", "anchors": ["src/fr_generic.cpp.ejs: Fr_add"]}
{"id": "C09", "title": "Field subtraction over all representations", "statement": "Fr_sub(r,a,b) stores a well-formed element of value (a-b) mod q for all representation combinations, and changes nothing but r; r distinct from a and b.", "quantifier": "every modulus above 2^62, every pair of well-formed elements in every representation", "why_tests_cant": "As for addition; additionally short-minus-long and negative short cases use separate code.", "anchors": ["src/fr_generic.cpp.ejs: Fr_sub"]}
{"id": "C10", "title": "Field multiplication and squaring over all representations, in place too", "statement": "Fr_mul(r,a,b) and Fr_square(r,a) store a well-formed element of value a*b (a*a) mod q for all representation combinations and every aliasing of r with a and b, and change nothing but r.", "quantifier": "every modulus above 2^62, every pair of well-formed elements in every representation, every aliasing pattern", "why_tests_cant": "16 representation pairs times 5 aliasing patterns times all values.", "anchors": ["src/fr_generic.cpp.ejs: Fr_mul, Fr_square"]}
{"id": "C11", "title": "Field negation over all representations, in place too", "statement": "Fr_neg(r,a) stores a well-formed element of value -a mod q, including the most negative short value, also when r is a.", "quantifier": "every modulus above 2^62, every well-formed element", "why_tests_cant": "INT32_MIN and zero interact with stale memory in r.", "anchors": ["src/fr_generic.cpp.ejs: Fr_neg"]}
{"id": "C12", "title": "Conversions preserve the value", "statement": "Fr_toNormal, Fr_toLongNormal and Fr_toMontgomery leave the field value unchanged and return the advertised representation, so that any later operation on the result gives the same answer as on the original; the destination's previous content never influences the result.", "quantifier": "every well-formed element, every previous content of the destination, every aliasing", "why_tests_cant": "Depends on stale memory in the destination, which tests zero-initialise by chance.", "anchors": ["src/fr_generic.cpp.ejs: Fr_toNormal, Fr_toLongNormal, Fr_toMontgomery"]}
{"id": "C13", "title": "Order comparisons agree with the signed representative", "statement": "Fr_lt, Fr_gt, Fr_leq, Fr_geq store 1 or 0 according to the order of the signed representatives (values above q/2 count as negative), across all representation combinations and any aliasing; hence they form a total order consistent with equality.", "quantifier": "every modulus above 2^62, every pair of well-formed elements in every representation, every aliasing", "why_tests_cant": "All pairs of values around the sign boundary in 16 representation pairs.", "anchors": ["src/fr_generic.cpp.ejs: Fr_lt, Fr_gt, Fr_leq, Fr_geq"]}
{"id": "C14", "title": "Equality decides field equality", "statement": "Fr_eq stores 1 iff the two operands denote the same field element, whatever their representations, and Fr_neq its negation; any aliasing.", "quantifier": "every modulus above 2^62, every pair of well-formed elements in every representation", "why_tests_cant": "A false positive or negative would be a single pair among 2^508.", "anchors": ["src/fr_generic.cpp.ejs: Fr_eq, Fr_neq"]}
{"id": "C15", "title": "Logical operations depend only on being zero", "statement": "Fr_land, Fr_lor, Fr_lnot and Fr_isTrue return and/or/not/identity of 'value is non-zero', in every representation.", "quantifier": "every well-formed element in every representation", "why_tests_cant": "All representations of zero and non-zero values, including non-reduced zero patterns, must be excluded.", "anchors": ["src/fr_generic.cpp.ejs: Fr_land, Fr_lor, Fr_lnot, Fr_isTrue"]}
{"id": "C16", "title": "Bitwise field operations", "statement": "Fr_band, Fr_bor, Fr_bxor, Fr_bnot store (x op y mod 2^bitLength(q)) mod q where x,y are the canonical representatives, for all representation combinations, r distinct from the operands.", "quantifier": "every modulus above 2^62, every pair of well-formed elements in every representation", "why_tests_cant": "Short fast paths and long paths must agree for all values.", "anchors": ["src/fr_generic.cpp.ejs: Fr_band, Fr_bor, Fr_bxor, Fr_bnot"]}
{"id": "C17", "title": "Field shifts", "statement": "Fr_shl(r,a,b) stores (a*2^b mod 2^bitLength(q)) mod q when the representative of b is below bitLength(q), behaves as a right shift by q-b when q-b is below bitLength(q), and stores 0 otherwise; Fr_shr is the mirror image; r distinct from the operands.", "quantifier": "every modulus above 2^62, every pair of well-formed elements in every representation", "why_tests_cant": "Shift amount decoding has six branches, each over all values.", "anchors": ["src/fr_generic.cpp.ejs: Fr_shl, Fr_shr"]}
{"id": "C18", "title": "Integer conversion either returns the exact value or fails", "statement": "Fr_toInt(a) returns the signed 32-bit integer congruent to a when one exists, and fails (assertion) for every other element; it never returns a wrong integer.", "quantifier": "every well-formed element", "why_tests_cant": "Wrong results occur only for long values whose low limb happens to be close to q's low limb.", "anchors": ["src/fr_generic.cpp.ejs: Fr_toInt, Fr_longNeg", "src/utils / copy.asm.ejs: Fr_toInt"]}
{"id": "C19", "title": "In-place use of binary field operations", "statement": "Fr_add, Fr_sub, Fr_band, Fr_bor, Fr_bxor, Fr_bnot, Fr_shl, Fr_shr give the same value when the destination is one of the operands as when it is a fresh element.", "quantifier": "every pair of elements in every representation, every aliasing pattern", "why_tests_cant": "The test driver always passes a separate destination.", "anchors": ["src/fr_generic.cpp.ejs: Fr_add, Fr_sub, Fr_band, Fr_bor, Fr_bxor, Fr_bnot, Fr_shl, Fr_shr"]}
{"id": "C20", "title": "Any program over field elements stays canonical and computes in Z/q", "statement": "Starting from well-formed elements, after any finite sequence of library calls (add, sub, mul, square, neg, comparisons, logic, bit operations, shifts, toNormal, toLongNormal, copy) with destinations distinct from operands, every element is still well-formed and its value equals that obtained by running the same program on integers modulo q.", "quantifier": "every finite sequence of operations on every memory of elements", "why_tests_cant": "Histories are unbounded; representation invariants must hold between every two calls.", "anchors": ["src/fr_generic.cpp.ejs: all Fr_* operations"]}
{"id": "C21", "title": "Integer division, remainder, power, inverse, division", "statement": "Fr_idiv, Fr_mod, Fr_pow, Fr_inv and Fr_div compute floor(a/b), a mod b, a^b mod q, the multiplicative inverse and a/b on canonical representatives for all representations when the divisor is non-zero, with any aliasing.", "quantifier": "every prime modulus above 2^62, every pair of well-formed elements, divisor non-zero", "why_tests_cant": "All values, all representations.", "anchors": ["src/fr.cpp.ejs: Fr_idiv, Fr_mod, Fr_pow, Fr_inv, Fr_div"]}
{"id": "C22", "title": "Decimal text conversion round-trips", "statement": "Fr_element2str yields the decimal text of the canonical representative, Fr_str2element reads decimal text modulo q, so reading back a printed element gives an equal element.", "quantifier": "every well-formed element; every decimal string, signed or not", "why_tests_cant": "Unbounded string length and all values.", "anchors": ["src/fr.cpp.ejs: Fr_str2element, Fr_element2str"]}
{"id": "C23", "title": "RawFr arithmetic wrapper is a field homomorphic to Z/q", "statement": "RawFr::fromUI/set/fromMpz/fromString embed integers modulo q; add, sub, neg, mul, square, inv, div on RawFr elements correspond to the field operations under RawFr::toMpz, and results are canonical.", "quantifier": "every prime modulus above 2^32, every canonical element, every integer argument in range", "why_tests_cant": "All values; conversions of unreduced integers.", "anchors": ["src/fr.cpp.ejs: RawFr::set, fromUI, fromMpz, inv, div, toMpz", "src/fr.hpp.ejs: RawFr"]}
{"id": "C24", "title": "RawFr exponentiation", "statement": "RawFr::exp(r,base,scalar,n) stores base^k where k is the little-endian integer in the n scalar bytes (base^0 = 1), also when r is base.", "quantifier": "every base, every scalar byte string of every length (including empty), every aliasing", "why_tests_cant": "Unbounded exponents.", "anchors": ["src/fr.cpp.ejs: RawFr::exp"]}
{"id": "C25", "title": "Big-endian serialisation round-trips", "statement": "RawFr::toRprBE writes the N64*8-byte big-endian canonical representative and RawFr::fromRprBE reads it back to the same element, for every element and every sufficiently large buffer.", "quantifier": "every canonical element, every buffer size at least N64*8, every previous buffer content", "why_tests_cant": "Zero is one element out of q and is not in the test vectors.", "anchors": ["src/fr.cpp.ejs: RawFr::toRprBE, RawFr::fromRprBE"]}
{"id": "C26", "title": "Non-adjacent form is a correct recoding", "statement": "buildNaf returns digits in {-1,0,1} with no two adjacent non-zero digits whose weighted sum equals the scalar.", "quantifier": "every scalar byte string of length >= 1", "why_tests_cant": "2^(8n) scalars.", "anchors": ["c/naf.cpp: buildNaf"]}
{"id": "C27", "title": "Scalar multiplication by NAF", "statement": "mulByScalar computes k*P in any abelian group (k the little-endian scalar), also when the result overwrites the base.", "quantifier": "every group, every base, every scalar of length >= 1, every aliasing", "why_tests_cant": "Unbounded scalars.", "anchors": ["c/exp.hpp: nafMulByScalar", "c/curve.hpp: mulByScalar"]}
{"id": "C28", "title": "Point addition, doubling and mixed addition compute the group law", "statement": "For points on the curve, Curve::add (all operand kinds), dbl, sub and neg of projective points return a representation of the chord-and-tangent sum, for all inputs including infinity, equal points and inverse points, and also in place.", "quantifier": "every field of characteristic other than 2 and 3, every curve y^2=x^3+ax+b with b non-zero and non-zero discriminant, every pair of points in every coordinate representation, every aliasing", "why_tests_cant": "Exceptional cases (equal x, doubling, 2-torsion, infinity in different encodings) are hit by no random test.", "anchors": ["c/curve.cpp: Curve::add, dbl, sub, neg"]}
{"id": "C29", "title": "Group operations stay on the curve and satisfy the coordinate invariant", "statement": "Every projective point produced by any sequence of curve operations from valid points is again valid: either infinity or zz^3 = zzz^2, zz non-zero and on the curve.", "quantifier": "every finite sequence of group operations", "why_tests_cant": "Unbounded histories.", "anchors": ["c/curve.cpp: Curve::*"]}
{"id": "C30", "title": "Point equality decides geometric equality", "statement": "Curve::eq on projective/affine points returns true iff the two operands denote the same point, for every representation of infinity accepted by isZero.", "quantifier": "every pair of valid points in every representation", "why_tests_cant": "Infinity has many encodings, only one is used in tests.", "anchors": ["c/curve.cpp: Curve::eq"]}
{"id": "C31", "title": "Affine conversions and negation preserve the point", "statement": "Curve::copy between projective and affine forms and Curve::neg in all four operand kinds denote the same point / its inverse, including infinity.", "quantifier": "every valid point in every representation", "why_tests_cant": "Infinity in affine form is special-cased by (0,0).", "anchors": ["c/curve.cpp: Curve::copy, Curve::neg"]}
{"id": "C32", "title": "Quadratic extension arithmetic", "statement": "F2Field add, sub, neg, mul, square, inv, div, mulScalar and conjugate implement F[u]/(u^2 - nr) for the configured non-residue nr, for every aliasing of destination and operands.", "quantifier": "every base field, every non-residue, every pair of elements, every aliasing", "why_tests_cant": "Only nr = -1 is instantiated in tests.", "anchors": ["c/f2field.cpp"]}
{"id": "C33", "title": "Sextic extension arithmetic", "statement": "F6Field add, sub, mul, square, inv, mulTau implement F2[t]/(t^3 - xi) with xi = 9+u, for every aliasing.", "quantifier": "every base field, every pair of elements, every aliasing", "why_tests_cant": "Not tested upstream beyond a few values.", "anchors": ["c/f6field.cpp"]}
{"id": "C34", "title": "Dodecic extension arithmetic", "statement": "F12Field add, sub, mul, square, inv, exp implement F6[w]/(w^2 - t), for every aliasing.", "quantifier": "every base field, every pair of elements, every scalar, every aliasing", "why_tests_cant": "As above.", "anchors": ["c/f12field.cpp"]}
{"id": "C35", "title": "Multi-exponentiation equals the sum of scalar multiples", "statement": "ParallelMultiexp::multiexp computes sum k_i * P_i for every n, scalar size >= 8 and thread count, whatever the assignment of points and chunks to OpenMP threads.", "quantifier": "every abelian group, every list of points and scalars, every number of threads, every schedule", "why_tests_cant": "Schedules and sizes are unbounded.", "anchors": ["c/multiexp.cpp: ParallelMultiexp::multiexp"]}
{"id": "C36", "title": "Bucket MSM equals the sum of scalar multiples", "statement": "MSM::run computes sum k_i * P_i for all points, scalars and thread counts.", "quantifier": "every abelian group, every list of points, every scalar byte string of every size >= 8, every thread count and schedule", "why_tests_cant": "Carry out of the top window occurs only for scalars in the top half of the byte range.", "anchors": ["c/msm.cpp: MSM::run"]}
{"id": "C37", "title": "Integer log2", "statement": "log2(x) is floor(log2 x) for every 32-bit x > 0 (and 0 for 0).", "quantifier": "every 32-bit value", "why_tests_cant": "2^32 values; the de Bruijn table is opaque.", "anchors": ["c/misc.cpp: log2"]}
{"id": "C38", "title": "FFT computes the discrete Fourier transform", "statement": "FFT::fft replaces a[] by its DFT: out[k] = sum_j a[j] w^(jk) with w a primitive n-th root of unity, for every power-of-two n up to the supported domain.", "quantifier": "every field with the required 2-adicity, every size, every input vector, every thread count", "why_tests_cant": "All sizes and vectors; butterfly indexing is bug-prone.", "anchors": ["c/fft.cpp: FFT::fft, reversePermutation, root"]}
{"id": "C39", "title": "Inverse FFT inverts the FFT", "statement": "FFT::ifft(FFT::fft(a)) = a and conversely.", "quantifier": "every field, every power-of-two size up to the domain size, every vector", "why_tests_cant": "All sizes, including 1 and 2.", "anchors": ["c/fft.cpp: FFT::ifft"]}
{"id": "C40", "title": "FFT root table", "statement": "After construction, the root table contains w^i at index i where w has exact order 2^s, for every thread count used to fill it; construction fails iff the field's 2-adicity is too small.", "quantifier": "every field, every domain size, every thread count", "why_tests_cant": "Thread-count dependent table filling.", "anchors": ["c/fft.cpp: FFT::FFT"]}
{"id": "C41", "title": "Parallel loops are schedule independent", "statement": "ThreadPool::parallelFor calls the body on contiguous ranges that partition [begin,end) exactly; for the loop bodies used by FFT (bit-reversal swap, butterflies, final scaling) every interleaving of the iterations gives the same memory.", "quantifier": "every range, every thread count, every interleaving of iterations", "why_tests_cant": "Schedules cannot be enumerated by tests.", "anchors": ["c/misc.hpp: ThreadPool::parallelFor, divideWork", "c/fft.cpp"]}
{"id": "C42", "title": "Worker executes each submitted task exactly once", "statement": "For a ThreadWorker used by one client that alternates submit and wait, under every interleaving each submitted task is executed exactly once, in order, and wait returns only after the task finished; no deadlock while the worker is not being destroyed.", "quantifier": "every interleaving of client and worker steps, spurious wake-ups included, every sequence of submit/wait", "why_tests_cant": "Interleavings.", "anchors": ["c/misc.hpp: ThreadWorker"]}
{"id": "C43", "title": "Worker shutdown terminates", "statement": "Destroying a ThreadWorker always terminates: no interleaving leaves the destructor waiting forever.", "quantifier": "every interleaving", "why_tests_cant": "A lost wake-up needs a specific preemption between predicate check and sleep.", "anchors": ["c/misc.hpp: ThreadWorker::~ThreadWorker"]}
{"id": "C44", "title": "Binary container parsing returns the sections of the file", "statement": "For a well-formed container, BinFile lists exactly the sections written, with their type, size and payload, in order; reading section data returns the payload bytes in order.", "quantifier": "every well-formed file with any number, order and sizes of sections", "why_tests_cant": "Unbounded files.", "anchors": ["c/binfile_utils.cpp: BinFile::BinFile, getSectionData, startReadSection, readU32LE, readU64LE, read"]}
{"id": "C45", "title": "Malformed containers are rejected without out-of-bounds access", "statement": "Opening any byte string as a container either succeeds, or raises an error; no read goes beyond the mapped file.", "quantifier": "every byte string", "why_tests_cant": "Truncated or oversized length fields.", "anchors": ["c/binfile_utils.cpp: BinFile::BinFile"]}
{"id": "C46", "title": "Section reading protocol", "statement": "startReadSection / endReadSection enforce that at most one section is being read and that exactly the whole section has been consumed; after any successful sequence the reader is idle again.", "quantifier": "every sequence of reader calls", "why_tests_cant": "Unbounded call sequences.", "anchors": ["c/binfile_utils.cpp: startReadSection, endReadSection"]}
{"id": "C47", "title": "Headers of keys and witnesses are parsed field by field", "statement": "Loading a zkey or wtns header from a well-formed file returns the numbers written in the header.", "quantifier": "every well-formed header", "why_tests_cant": "All values of all fields.", "anchors": ["c/zkey_utils.cpp: loadHeader", "c/wtns_utils.cpp: loadHeader"]}
{"id": "C48", "title": "Parsing of nested tuples", "statement": "splitParStr splits a parenthesised, comma-separated text into its top-level components, so that parsing the text printed by F2/F6/F12 toString recovers the components.", "quantifier": "every nested tuple of numbers of the printed shape, any digits", "why_tests_cant": "Unbounded strings and nesting.", "anchors": ["c/splitparstr.cpp: splitParStr, removePars"]}
{"id": "C49", "title": "Tuple parsing always terminates", "statement": "splitParStr terminates on every string.", "quantifier": "every string", "why_tests_cant": "Strings without a top-level comma are not tested.", "anchors": ["c/splitparstr.cpp: splitParStr"]}
{"id": "C50", "title": "Generator constants satisfy the Montgomery identities", "statement": "The constants emitted for a prime (limb count, R^2, R^3, q/2, the 64-bit negative inverse, the top-limb mask and the optimisation flag) satisfy the identities the arithmetic relies on.", "quantifier": "every odd modulus greater than 1", "why_tests_cant": "All primes.", "anchors": ["src/buildzqfield.js: ZqBuilder", " src/fr_raw_generic.cpp.ejs: constants"]}
{"id": "C51", "title": "x86-64 Montgomery multiplication is exact", "statement": "The instruction sequence emitted by the assembly generator for rawMMul computes the same value as the portable implementation.", "quantifier": "every odd modulus, every limb count, every pair of canonical inputs", "why_tests_cant": "Two interleaved carry chains; all carry combinations.", "anchors": ["src/montgomerybuilder.js: buildMul"]}
{"id": "C52", "title": "Swapping raw elements", "statement": "rawSwap exchanges the contents of its two operands in every implementation (portable and x86-64).", "quantifier": "every pair of elements, every register state", "why_tests_cant": "Depends on the caller's register contents.", "anchors": ["src/fr_raw_generic.cpp.ejs: Fr_rawSwap", "src/copy.asm.ejs: Fr_rawSwap"]}
{"id": "C53", "title": "Strided multi-exponentiation", "statement": "multiexp with nx and x[] sums exactly the k_i * P_i with i/nx < x[i mod nx].", "quantifier": "every abelian group, every list of points and scalars, every nx and x[], every number of threads, every schedule", "why_tests_cant": "Sizes, strides and schedules are unbounded; unsigned wrap at size 0.", "anchors": ["c/multiexp.cpp: ParallelMultiexp::processChunk, multiexp"]}
{"id": "C54", "title": "x86-64 Montgomery square, small-factor product and reduction are exact", "statement": "The instruction sequences emitted by the assembly generator for rawMSquare, rawMMul1 and rawFromMontgomery compute the same values as the portable implementation and respect the calling convention.", "quantifier": "every odd modulus, every limb count, every canonical input, every register, flag and stack contents", "why_tests_cant": "The register allocator spills for large limb counts; the result may depend on what is on the stack.", "anchors": ["src/montgomerybuilder.js: buildSquare, buildMul1, buildFromMontgomery", "src/asmbuilder.js"]}
{"id": "C55", "title": "x86-64 addition, subtraction, negation, copies and comparisons are exact", "statement": "The x86-64 rawAdd, rawSub, rawNeg, rawCopy, rawZero, rawIsEq and rawIsZero store or return what the portable ones do and change nothing else but rax and the flags.", "quantifier": "every odd modulus, every limb count, every input, every register and memory contents, destination equal to or disjoint from the operands", "why_tests_cant": "Carry chains of every length next to the modulus.", "anchors": ["src/add.asm.ejs: Fr_rawAdd", "src/sub.asm.ejs: Fr_rawSub", "src/neg.asm.ejs: Fr_rawNeg", "src/copy.asm.ejs", "src/cmpops.asm.ejs: Fr_rawIsEq, Fr_rawIsZero"]}
{"id": "C56", "title": "Thread pool runs every job once inside its call", "statement": "Each parallelFor or parallelBlock call on a ThreadPool runs each of its jobs exactly once from start to end, job k on worker k and the last on the caller; no part of a job happens before its call begins or after it has returned; the calls neither deadlock nor run forever.", "quantifier": "every number of workers, every sequence of calls, every interleaving of all threads, every spurious wake-up", "why_tests_cant": "The number of interleavings of the mutexes and condition variables of all workers is unbounded.", "anchors": ["c/misc.hpp: ThreadPool::parallelFor, ThreadPool::parallelBlock, ThreadWorker"]}
{"id": "C57", "title": "The parallel loops of multiexp and MSM have no data race", "statement": "In processChunk, packThreads, the loop of reduce, and the two parallelFor loops of MSM::run no thread writes an element that another one reads or writes, and every interleaving of the single memory operations leaves the arrays that the iterations run one after the other leave.", "quantifier": "every number of threads, every assignment of iterations to threads, every interleaving, all scalars and points", "why_tests_cant": "A data race shows only under particular interleavings; their number is unbounded.", "anchors": ["c/multiexp.cpp: processChunk, packThreads, reduce", "c/msm.cpp: MSM::run"]}
{"id": "C58", "title": "x86-64 tagged conversions and negation are exact", "statement": "The x86-64 Fr_toMontgomery, Fr_toNormal, Fr_toLongNormal and Fr_neg store an element of the right type with the same (negated) value, write nothing but the destination and the stack below the return address, and keep the callee-saved registers.", "quantifier": "every odd modulus above 2^32, every limb count, every representation of the operand, destination equal to or disjoint from it, every register, flag and memory contents", "why_tests_cant": "Values at the 32-bit limits and carry chains; results may depend on stack and register contents.", "anchors": ["src/montgomery.asm.ejs: Fr_toNormal, Fr_toLongNormal, Fr_toMontgomery", "src/neg.asm.ejs: Fr_neg", "src/copy.asm.ejs: Fr_copy, rawCopyS2L"]}
{"id": "C59", "title": "x86-64 tagged multiplication and squaring are exact", "statement": "The x86-64 Fr_mul and Fr_square store an element whose value is the product of the operands, write nothing but the destination and the stack, and keep the callee-saved registers.", "quantifier": "every odd modulus above 2^62, every limb count, all sixteen combinations of representations, each operand equal to or disjoint from the destination, every register, flag and memory contents", "why_tests_cant": "Sixteen combinations of representations times signs times aliasing, with values at the overflow limits.", "anchors": ["src/mul.asm.ejs: Fr_mul, Fr_square"]}
{"id": "C60", "title": "x86-64 tagged addition and subtraction are exact", "statement": "The x86-64 Fr_add and Fr_sub store an element whose value is the sum (difference) of the operands, write nothing but the destination and the stack below the return address, and keep the callee-saved registers, wherever the destination is.", "quantifier": "every odd modulus above 2^32, every limb count, all sixteen combinations of representations, each operand equal to or disjoint from the destination, every register, flag and memory contents", "why_tests_cant": "Sixteen combinations of representations times signs times aliasing, with carry chains and values at the 32-bit overflow limits.", "anchors": ["src/add.asm.ejs: Fr_add, add_s1s2, add_l1s2, add_s1l2, rawAddLS", "src/sub.asm.ejs: Fr_sub, rawSubLS, rawSubSL, rawNegLS", "src/utils.asm.ejs: toMont_a, toMont_b"]}
{"id": "C61", "title": "x86-64 tagged comparisons are exact", "statement": "The x86-64 Fr_eq, Fr_neq, Fr_lt, Fr_gt, Fr_leq and Fr_geq store the short 1 or 0 according to the order of the signed representatives (between -q/2 and q/2) of the two values, write nothing but the destination and the stack below the return address, and keep the callee-saved registers.", "quantifier": "every odd modulus above 2^32, every limb count, all sixteen combinations of representations, operands overlapping the destination and each other in any way, every register, flag and memory contents", "why_tests_cant": "Sixteen combinations of representations times four sign combinations, with values next to q/2 and word-wise comparisons deciding at any limb.", "anchors": ["src/cmpops.asm.ejs: Fr_rgt, Fr_rlt, Fr_req, Fr_eq, Fr_neq, Fr_lt, Fr_gt, Fr_leq, Fr_geq", "src/utils.asm.ejs"]}
{"id": "C62", "title": "x86-64 tagged logical operations are exact", "statement": "The x86-64 Fr_land, Fr_lor and Fr_lnot store the short 1 or 0 that is the conjunction, disjunction or negation of the truth of their operands, and Fr_isTrue returns the truth of its operand, where an element is true when its value is not zero; nothing but the destination is written and the callee-saved registers are kept.", "quantifier": "every odd modulus above 2^32, every limb count, every combination of representations, operands overlapping the destination and each other in any way, every register, flag and memory contents", "why_tests_cant": "Zero has several representations (short with stale limbs, long with stale short), and a value may be non-zero in one limb only.", "anchors": ["src/logicalops.asm.ejs: Fr_land, Fr_lor, Fr_lnot, Fr_isTrue, isTrue"]}
{"id": "C63", "title": "x86-64 tagged bitwise operations are exact", "statement": "The x86-64 Fr_band, Fr_bor, Fr_bxor and Fr_bnot leave in the destination an element whose value is the bitwise operation on the canonical representatives of the operands, cut to the bits of q and reduced mod q; nothing but the destination is written and the callee-saved registers are kept.", "quantifier": "every odd modulus above 2^32, every limb count, every combination of representations, operands apart from or equal to the destination, every register, flag and memory contents", "why_tests_cant": "Sixteen combinations of representation times the aliasings take different code paths, the final conditional subtraction compares limb by limb and its rare branches need equal high limbs, and the mask of the last limb depends on the modulus.", "anchors": ["src/binops.asm.ejs: Fr_band, Fr_bor, Fr_bxor, Fr_bnot"]}
{"id": "C64", "title": "x86-64 raw shifts are exact", "statement": "The x86-64 Fr_rawShl stores (a*2^k mod 2^bitLength(q)) mod q and Fr_rawShr stores floor(a/2^k), both 0 when the 64-bit count k is at least bitLength(q); nothing else in memory changes and only rax, rcx, rdx, r8-r11 and the flags are clobbered.", "quantifier": "every odd modulus, every limb count, every operand, every 64-bit count, destination equal to or disjoint from the operand, every register and memory contents", "why_tests_cant": "Each limb takes one of three code paths depending on the count, aligned and unaligned counts use different loops, in-place use depends on the order of the limbs, and the conditional subtraction is rare.", "anchors": ["src/binops.asm.ejs: Fr_rawShl, Fr_rawShr"]}
{"id": "C65", "title": "x86-64 tagged shifts are exact", "statement": "The x86-64 Fr_shl and Fr_shr leave in the destination an element whose value is a shifted by b: with a count b below bitLength(q) forward (left: (a*2^b mod 2^bitLength(q)) mod q, right: floor(a/2^b)), with a count within bitLength(q) of q in the other direction by q-b, and zero with any other count; nothing but the destination is written and the callee-saved registers are kept.", "quantifier": "every odd modulus above 2^32, every limb count, every combination of representations of operand and count, operands equal to or apart from each other and the destination, every register, flag and memory contents", "why_tests_cant": "A count is recognised as negative by a limb-by-limb subtraction from q whose jumps depend on the modulus; short operands have a fast path with its own overflow test; the count's representations, its ranges and those of the operand multiply to dozens of paths.", "anchors": ["src/binops.asm.ejs: Fr_shl, Fr_shr, do_shl, do_shr, setzero"]}
{"id": "C66", "title": "x86-64 toInt is exact", "statement": "The x86-64 Fr_toInt returns the int z for an element congruent to z modulo q with -2^31 <= z < 2^31, and calls Fr_fail for every other element; it writes nothing but the stack and keeps the callee-saved registers.", "quantifier": "every odd modulus above 2^32, every limb count, every representation of the element, every register, flag and memory contents, whatever Fr_fail does", "why_tests_cant": "Negative values are recognised by a chain of borrows that depends on the limbs of the modulus, so moduli with a small low limb and values that differ from a small negative only in the upper limbs behave differently from the usual test values; the temporary of the conversion overlaps a saved register on the stack.", "anchors": ["src/copy.asm.ejs: Fr_toInt", "src/utils.asm.ejs: fromMont_r", "src/fr.cpp.ejs: Fr_fail"]}
{"id": "C67", "title": "x86-64 copyn copies exactly the elements", "statement": "The x86-64 Fr_copyn(r, a, n) copies n elements from a to r, also when the arrays overlap with r below a, writes nothing else, and changes no register but rax, rcx, rdx, r8 and r9.", "quantifier": "every limb count, every number of elements, every pair of aligned arrays that are disjoint or of which the destination starts lower, every register and memory contents", "why_tests_cant": "The number of words is a 64-bit product of which only the low half is used, and the upper half of the register of an int argument is unspecified; compilers usually leave it zero, so tests pass.", "anchors": ["src/copy.asm.ejs: Fr_copyn", "src/fr.hpp.ejs: Fr_copyn"]}
{"id": "C68", "title": "AArch64 copies and comparisons", "statement": "The generated AArch64 rawCopy, rawSwap, rawIsZero, rawIsEq and rawCmp copy, exchange, test for zero, test for equality and compare numbers of n words, access no memory but their operands, write nothing else, and keep the stack pointer and x18 to x30.", "quantifier": "every number of words, every operand values, every pair of aligned operands that are the same or disjoint, every register and memory contents", "why_tests_cant": "The code and its register allocation depend on the number of words; work registers are handed out cyclically, and whether a pending value is overwritten shows only for particular widths, which the primes of the tests do not have.", "anchors": ["src/armbuilder.js: Gen_rawCopy, Gen_rawSwap, Gen_rawIsZero, Gen_rawIsEq, Gen_rawCmp", "src/fr_raw_arm64.s.ejs"]}
{"id": "C69", "title": "AArch64 additions and subtractions modulo q", "statement": "For a and b below q the generated AArch64 rawAdd, rawAddLS, rawSub, rawSubLS and rawSubSL store (a + b) mod q resp. (a - b) mod q, and rawNegLS stores (-(a + b)) mod q; they access no memory but their operands, q and the 96 bytes below the stack pointer, write only the result and those bytes, and restore the stack pointer and x18 to x30.", "quantifier": "every number of words from 1 to 12 (the generator has no registers for more), every q, every a and b below q, every placement of the operands and the result, which may overlap, every register and memory contents", "why_tests_cant": "Whether the correction by q is applied depends on carries out of the top word, and whether a register is overwritten too early on the number of words; random operands of one prime reach few of these combinations.", "anchors": ["src/armbuilder.js: Gen_rawAdd, Gen_rawSub, Gen_rawNegLS, pushRegs, popRegs", "src/fr_raw_arm64.s.ejs"]}
{"id": "C70", "title": "AArch64 Montgomery multiplications", "statement": "The generated AArch64 rawMMul, rawMMul1 and rawFromMontgomery store the r below q with r*2^(64n) congruent to a*b modulo q (b below q, one word b, and b = 1), access no memory but their operands, q, np and the stack below the stack pointer, write only the result and that stack, and restore the stack pointer and x18 to x30.", "quantifier": "every number of words from 1 to 12, every odd q, every a of n words (below q for the latter two), both shapes of the generated code, every placement of the operands and the result, which may overlap, every register and memory contents", "why_tests_cant": "The code of each width keeps operands in different registers or reloads them; a register handed out twice or a lost carry into the extra word shows only for particular widths and operands; a read past the operand shows only at the end of a mapped page.", "anchors": ["src/armbuilder.js: Gen_rawMul, Gen_rawMul1, genCselStore, genLoadVar", "src/fr_raw_arm64.s.ejs"]}
{"id": "C71", "title": "AArch64 bitwise operations", "statement": "The generated AArch64 rawAnd, rawOr, rawXor and rawNot store the bitwise result of their operands cut to the number of bits of q and reduced modulo q, access no memory but their operands, q, lboMask and the stack below the stack pointer, write only the result and that stack, and restore the stack pointer and x18 to x30.", "quantifier": "every number of words from 1 to 12, every q with its top word non-zero, every operands of n words, reduced or not, every placement of the operands and the result, which may overlap, every register and memory contents", "why_tests_cant": "The registers differ per width and the operand pointer x2 is reused for the mask; a mask on the wrong word or a subtraction done once too little shows only for operands with bits between q and the next power of two.", "anchors": ["src/armbuilder.js: Gen_rawBinOp, genLboMask, genSubLoad, genCselStore", "src/fr_raw_arm64.s.ejs: lboMask"]}
