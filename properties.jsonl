{"id": "C01", "title": "U256 addition, subtraction and negation are exact modulo 2^256", "statement": "For any two U256 values a and b: a + b, a - b and -a return the representative in [0, 2^256) of the integer result modulo 2^256; the carry reported by the full addition is 1 exactly when the integer sum is at least 2^256, and the borrow reported by the full subtraction is set exactly when a < b. The ordering operators on U256 agree with the integer order.", "quantifier": "every pair of 256-bit values", "why_tests_cant": "The domain has 2^256 (or 2^512) points; random testing practically never hits the carry/borrow corner cases.", "anchors": ["algebra/u256/src/additive.rs: add_full_inline, sub_full_inline, add_inline, sub_inline, sub_from_inline, Neg", "algebra/u256/src/u256.rs: Ord", "algebra/u256/src/algorithms/limb_operations.rs: adc, sbb"]}
{"id": "C02", "title": "U256 multiplication and squaring are exact", "statement": "For any a, b: the full product (lo, hi) satisfies lo + 2^256*hi = a*b, the full square equals the full product of a with itself, the U256-by-u64 product is exact with its carry limb, and the wrapping product is a*b mod 2^256. No intermediate u64/u128 addition overflows.", "quantifier": "every pair of 256-bit values and every u64", "why_tests_cant": "The domain has 2^256 (or 2^512) points; random testing practically never hits the carry/borrow corner cases.", "anchors": ["algebra/u256/src/multiplicative.rs: mul_full_inline, square_full_inline, mul_inline, mul_full", "algebra/u256/src/algorithms/limb_operations.rs: mac"]}
{"id": "C03", "title": "U256 division with remainder is exact Euclidean division", "statement": "a.div_rem(b) is None exactly when b = 0; otherwise, unless the quotient estimate of the multi-limb division meets the collision described next, it returns (q, r) with a = q*b + r and 0 <= r < b. Division by a u64 is always exact. Deviation found: when, at some step, the two leading limbs of the partial remainder equal the two leading limbs of the normalised divisor, a debug build panics and a release build can return a wrong quotient; this happens only for divisors of two or more limbs, and whenever a debug build returns, the result is exact.", "quantifier": "every dividend, every divisor (1- to 4-limb divisors all take different code paths)", "why_tests_cant": "Knuth's algorithm D has correction branches (estimate too large, add-back) taken with probability about 2^-63; random tests never reach them.", "anchors": ["algebra/u256/src/division.rs: DivRem<u64>, DivRem<&Self>", "algebra/u256/src/arch/generic/knuth_division.rs: divrem_2by1, divrem_nby1, div_3by2, divrem_nbym"]}
{"id": "C04", "title": "Modular multiplication is exact for every modulus", "statement": "a.mulmod(b, m) returns a*b mod m for every a, b and non-zero m for which the division does not meet the leading-limb collision of C03; when a debug build returns, the result is exact. Deviation found: there are a, b for which mulmod panics (debug) or returns a wrong value (release), including with the crate's own prime as the modulus.", "quantifier": "every triple (a, b, m) with m > 0", "why_tests_cant": "512-bit by 256-bit division; the same rare correction branches as division.", "anchors": ["algebra/u256/src/multiplicative.rs: mulmod", "algebra/u256/src/arch/generic/knuth_division.rs: divrem_nbym"]}
{"id": "C05", "title": "Ring inverse modulo 2^256", "statement": "a.inv() is None exactly when a is even; when a is odd it returns r with a*r = 1 mod 2^256.", "quantifier": "every 256-bit value", "why_tests_cant": "Half of a 2^256-size domain; needs the Newton doubling invariant.", "anchors": ["algebra/u256/src/division.rs: Inv for &U256"]}
{"id": "C06", "title": "Modular inverse by Lehmer's algorithm", "statement": "For every modulus m >= 2 and every value x, in debug and release builds, x.inv_mod(m) is Some(y) with 0 <= y < m and x*y = 1 mod m when gcd(x, m) = 1, and None otherwise: Lehmer's single- and double-word simulation never computes a wrong cofactor and never overflows, and the loop terminates. The one exception is inherited from division (C03): if Euclid's algorithm on (x, m) reaches a full-precision division of c by a three-limb d on whose leading limbs the division code fails, a debug build panics and a release build may return a wrong value; a debug build never returns a wrong answer. This exception is reachable with the library's own field prime. inv_mod modulo 1 returns Some(1), which is not below the modulus, and modulo 0 panics.", "quantifier": "every modulus and every value, both build profiles", "why_tests_cant": "Lehmer's collapsing conditions fail only on special quotient sequences; unit tests see a few dozen of them.", "anchors": ["algebra/u256/src/division.rs: InvMod", "algebra/u256/src/arch/generic/lehmer_gcd.rs: inv_mod, lehmer_loop, lehmer_double, lehmer_small, lehmer_unroll, lehmer_update, div1, mat_mul"]}
{"id": "C07", "title": "Greatest common divisor and Bezout coefficients", "statement": "gcd(a, b) returns the greatest common divisor of a and b; gcd_extended(a, b) returns (g, u, v, even) with g the gcd and, as integers without wrap-around, u*a - v*b = g when even and v*b - u*a = g otherwise. This holds in both build profiles unless Euclid's algorithm on the operands reaches a division on which the division code fails (C03), in particular always when one operand is below 2^128; a debug build never returns a wrong result.", "quantifier": "every pair of 256-bit values, both build profiles", "why_tests_cant": "The domain has 2^256 (or 2^512) points; random testing practically never hits the carry/borrow corner cases.", "anchors": ["algebra/u256/src/arch/generic/lehmer_gcd.rs: gcd, gcd_extended"]}
{"id": "C08", "title": "Shifts and bit queries agree with the integer", "statement": "For every x and every usize n: x << n is x*2^n mod 2^256, x >> n is floor(x / 2^n), bit(i) is the i-th binary digit (false from 256 on), leading_zeros/trailing_zeros/count_ones/count_zeros are those of the 256-bit binary expansion, and !, &, |, ^ act bitwise. In particular the special shift amounts 0, 64, 128, 192 and >= 256 are handled.", "quantifier": "every 256-bit value and every shift amount", "why_tests_cant": "Product of a 2^256 value domain with all shift amounts and nine branches.", "anchors": ["algebra/u256/src/binary.rs: Binary for U256, ShlAssign, ShrAssign, Not, BitAndAssign, BitOrAssign, BitXorAssign"]}
{"id": "C09", "title": "Byte encoding is a big-endian bijection", "statement": "to_bytes_be returns the 32 big-endian base-256 digits of the value and from_bytes_be is its exact two-sided inverse, so that distinct values never share an encoding.", "quantifier": "every 256-bit value and every 32-byte array", "why_tests_cant": "Injectivity over 2^256 values.", "anchors": ["algebra/u256/src/conversion.rs: from_bytes_be, to_bytes_be"]}
{"id": "C10", "title": "Decimal text round-trips", "statement": "from_decimal_str(to_decimal_string(x)) = x for every x; every non-empty all-digit string whose value is below 2^256 parses to its value; the empty string is rejected as Empty and a string with a non-digit ASCII character before any overflow is rejected. Deviation proved separately: some strings denoting values >= 2^256 are NOT rejected (\"...639940\" = 2^256+4 parses to 4).", "quantifier": "every 256-bit value; every string of decimal digits", "why_tests_cant": "Unbounded set of strings; the overflow hole is exactly the last digit 0..5 corner after a wrapped multiplication.", "anchors": ["algebra/u256/src/encoding.rs: from_decimal_str, to_decimal_string"]}
{"id": "C11", "title": "Hexadecimal text round-trips", "statement": "from_hex_str(to_hex_string(x)) = x for every x, and any string of at most 64 hex digits, with or without one 0x prefix and in either case, parses to its value. Deviation proved separately: longer inputs silently keep only the first 64 digits.", "quantifier": "every 256-bit value; every string of hex digits", "why_tests_cant": "Unbounded set of strings.", "anchors": ["algebra/u256/src/encoding.rs: to_hex_string, from_hex_str"]}
{"id": "C12", "title": "Conversions from machine integers are two's complement", "statement": "U256::from(n) for unsigned n has value n; for signed n it has value n mod 2^256 (two's complement sign extension), for all widths up to 128 bits; the as_uN casts return the value modulo 2^N.", "quantifier": "every machine integer of every width; every 256-bit value", "why_tests_cant": "128-bit domain and sign corner cases (MIN).", "anchors": ["algebra/u256/src/conversion.rs: impl_from_uint, impl_from_int, From<u128>, From<i128>, as_int, as_u128"]}
{"id": "C13", "title": "Iterator product is exact; iterator sum is off by one", "statement": "Product of an iterator of U256 is the product modulo 2^256. Sum of an iterator of U256 is (1 + sum) modulo 2^256 - not the sum, contrary to the contract of std::iter::Sum (the fold starts from ONE); the empty sum is 1.", "quantifier": "every finite list of 256-bit values", "why_tests_cant": "Lists of any length.", "anchors": ["algebra/u256/src/additive.rs: Sum", "algebra/u256/src/multiplicative.rs: Product"]}
{"id": "C14", "title": "Integer power is exact modulo 2^256", "statement": "x.pow(n) for a u64 exponent returns x^n mod 2^256 (with x^0 = 1, including 0^0).", "quantifier": "every base and every u64 exponent", "why_tests_cant": "The domain has 2^256 (or 2^512) points; random testing practically never hits the carry/borrow corner cases.", "anchors": ["algebra/u256/src/multiplicative.rs: Pow<u64>"]}
{"id": "C15", "title": "Montgomery reduction and multiplication are correct for every valid modulus", "statement": "For every odd modulus 1 < m <= 2^255 whose declared constants satisfy their definitions: reducing a 512-bit x < m*2^256 returns the canonical value x/2^256 mod m, Montgomery multiplication of a, b < m returns a*b/2^256 mod m canonically, and conversion to and from Montgomery form are inverse bijections on [0, m). For moduli above 2^255 the code drops a carry: there are such moduli and operands for which the result is wrong.", "quantifier": "every modulus with consistent constants and all operands", "why_tests_cant": "Carry chains over 512-bit values and final conditional subtraction.", "anchors": ["algebra/u256/src/algorithms/montgomery/generic.rs: redc_inline, mul_redc_inline, to_montgomery_const", "algebra/u256/src/algorithms/montgomery/mod.rs: redc_inline, mul_redc_inline", "algebra/u256/src/functions.rs: Montgomery", "algebra/u256/src/traits/mod.rs: to_montgomery, from_montgomery"]}
{"id": "C16", "title": "The Proth-specialised Montgomery code equals the general one", "statement": "For moduli of the form k*2^192+1 the specialised reduction and multiplication return, for all operands, the same canonical residues as the general algorithm.", "quantifier": "every Proth modulus in range and all operands", "why_tests_cant": "The specialised code drops carries that must be shown to be zero for every input.", "anchors": ["algebra/u256/src/algorithms/montgomery/proth.rs: is_proth, redc_inline, mul_redc_inline", "algebra/u256/src/algorithms/montgomery/mod.rs"]}
{"id": "C17", "title": "Field element arithmetic is arithmetic modulo the prime", "statement": "For all field elements a, b: the integer value of a+b, a-b, -a, a*b, a.square() and a.double is the corresponding result modulo MODULUS, always in the canonical range [0, MODULUS); equality of elements is equality of values; from_uint and to_uint are mutually inverse on [0, MODULUS), and from_uint_reduce reduces any U256 modulo MODULUS.", "quantifier": "every pair of field elements", "why_tests_cant": "The domain has 2^256 (or 2^512) points; random testing practically never hits the carry/borrow corner cases.", "anchors": ["algebra/primefield/src/prime_field.rs: Add, Sub, Neg, Mul, SquareInline, from_uint, from_uint_reduce, to_uint", "algebra/primefield/src/proth_field.rs"]}
{"id": "C18", "title": "The two concrete moduli are primes and their constants are consistent", "statement": "MODULUS = 2^251+17*2^192+1 is prime; ORDER, R1, R2, R3, M64 and GENERATOR declared for the base field and R1, R2, R3, M64 for the curve scalar field satisfy their definitions; the base-field generator generates the whole multiplicative group's 2-part (is a non-square).", "quantifier": "the unbounded statement that no integer divides the modulus", "why_tests_cant": "Primality quantifies over all possible divisors.", "anchors": ["algebra/primefield/src/proth_field.rs", "algebra/elliptic-curve/src/scalar_field.rs"]}
{"id": "C19", "title": "Every non-zero field element has its inverse", "statement": "a.inv() is None exactly for zero and otherwise returns b with a*b = 1, and a/b returns the c with b*c = a (a panic for b = 0), unless Euclid's algorithm on the Montgomery limbs of the element and the modulus reaches a division on which the division code fails (C03). A debug build returns the right inverse or panics for every element. There is a field element for which a debug build panics and a release build silently returns an element that is not its inverse.", "quantifier": "every field element of every prime field the library can be instantiated with, both build profiles", "why_tests_cant": "The domain has 2^256 (or 2^512) points; random testing practically never hits the carry/borrow corner cases.", "anchors": ["algebra/primefield/src/prime_field.rs: Inv", "algebra/primefield/src/ops.rs: Div", "algebra/u256/src/functions.rs: inv_redc"]}
{"id": "C20", "title": "Exponentiation", "statement": "a.pow(e) for a U256-like exponent is the e-fold product of a; for an isize exponent it is the corresponding (possibly negative) power, None only for a negative power of zero. Deviation found: pow(isize::MIN) panics in a debug build and is right in a release build.", "quantifier": "every base and exponent", "why_tests_cant": "Exponent space of 2^256.", "anchors": ["algebra/primefield/src/prime_field.rs: Pow<&Exponent>, Pow<isize>"]}
{"id": "C21", "title": "Roots of unity", "statement": "Field::root(n) returns, for every n that divides p-1, an element of multiplicative order exactly n, and None for every other positive n; root(0) is 1.", "quantifier": "every order n", "why_tests_cant": "Orders up to 2^256; primitivity quantifies over all smaller exponents.", "anchors": ["algebra/primefield/src/prime_field.rs: Root"]}
{"id": "C22", "title": "Square roots", "statement": "a.square_root() is Some(r) exactly when a is a square, and then r*r = a; is_quadratic_residue agrees with the existence of a root.", "quantifier": "every field element", "why_tests_cant": "Tonelli-Shanks loop with up to 192 iterations over a 2^251 domain.", "anchors": ["algebra/primefield/src/prime_field.rs: square_root, is_quadratic_residue, SquareRoot"]}
{"id": "C23", "title": "Field conversions from and to machine integers", "statement": "FieldElement::from(n) has value n mod MODULUS for every unsigned and every signed n except the minimum of a signed type; to_u64/to_u128/to_i64/to_i128 return Some(v) only when v represents the element. Deviation proved separately: from(iN::MIN). Deviation found: the conversion of iN::MIN panics in a debug build and gives the wrong residue in a release build.", "quantifier": "every machine integer; every element", "why_tests_cant": "128-bit domain.", "anchors": ["algebra/primefield/src/convert.rs"]}
{"id": "C24", "title": "Batch inversion equals element-wise inversion", "statement": "invert_batch returns, for any list of non-zero elements, the list of their inverses in order; if any element is zero it panics rather than return wrong inverses. (It performs one field inversion, of the product of the list, which is subject to the exception of C19.)", "quantifier": "every list of field elements of any length", "why_tests_cant": "Lists of any length.", "anchors": ["algebra/primefield/src/invert_batch.rs: invert_batch, invert_batch_src_dst"]}
{"id": "C25", "title": "Geometric series iterators", "statement": "geometric_series(a, r) yields a, a*r, a*r^2, ...; skip(n), take(n) and step_by(n) yield exactly the corresponding sub-sequences while n stays within the length, and root_series(n) yields the n powers of a primitive n-th root of unity. Deviations found: skip past the end panics in a debug build and yields a practically endless series in a release build; step_by(n) yields floor(len/n) elements, one fewer than the standard adaptor when n does not divide the length.", "quantifier": "every base, step, index and combination of skip/take/step_by", "why_tests_cant": "Unbounded index and adaptor combinations.", "anchors": ["algebra/primefield/src/geometric_series.rs"]}
{"id": "C26", "title": "Bit-reversal permutation", "statement": "For every power-of-two size n, permute_index(n, .) is an involution on [0, n) that reverses the log2(n)-bit binary expansion, and permute applies exactly that permutation in place (each pair swapped once).", "quantifier": "every power-of-two size and index", "why_tests_cant": "All sizes up to 2^63.", "anchors": ["algebra/primefield/src/fft/bit_reverse.rs: permute_index, permute"]}
{"id": "C27", "title": "FFT computes the discrete Fourier transform in bit-reversed order", "statement": "For every power-of-two n for which a primitive root exists and every vector v of n elements, fft(v)[permute_index(n,i)] = sum_j v[j]*w^(i*j); fft_cofactor evaluates the polynomial on the coset; ifft after un-permuting inverts fft exactly. Deviations found: ifft_cofactor scales the permuted output by position, so it does not invert fft_cofactor; a length that is not a power of two panics in a debug build but silently gives a vector that is not the transform in a release build.", "quantifier": "every size 2^k and every vector", "why_tests_cant": "Recursion over all sizes, all inputs.", "anchors": ["algebra/primefield/src/fft/mod.rs: fft, ifft", "algebra/primefield/src/fft/recursive.rs: fft_vec_recursive", "algebra/primefield/src/fft/small.rs"]}
{"id": "C28", "title": "Large-size FFT (sqrt-radix) equals the plain FFT", "statement": "The parallel sqrt-radix FFT with transpositions used for large inputs produces exactly the same vector as the recursive FFT, for every input and independent of how the rows are scheduled.", "quantifier": "every size 2^k, every vector, every schedule of row jobs", "why_tests_cant": "Only exercised on vectors of more than 2^10 elements, with thread scheduling.", "anchors": ["algebra/primefield/src/fft/radix_sqrt.rs", "algebra/primefield/src/fft/transpose.rs"]}
{"id": "C29", "title": "In-place transposition", "statement": "transpose_square_stretch moves element (row, column, k) to (column, row, k) for stretch 2 and every size, and for stretch 1 and every even size; it is an involution and no element is lost or duplicated. Every other shape panics.", "quantifier": "every matrix, size and stretch", "why_tests_cant": "All sizes and recursion shapes.", "anchors": ["algebra/primefield/src/fft/transpose.rs"]}
{"id": "C30", "title": "Curve point addition is closed and is the chord-and-tangent law", "statement": "For all affine points P, Q on the curve y^2 = x^3 + x + beta (including zero): P + Q, -P, 2P and P - Q are on the curve, zero is neutral, P + (-P) is zero, addition is commutative, and the returned coordinates are the chord/tangent formula's.", "quantifier": "every pair of points", "why_tests_cant": "Points are pairs of 252-bit values; doubling/inverse corner cases have negligible probability.", "anchors": ["algebra/elliptic-curve/src/curve.rs: Affine, Add, double, Neg, is_on_curve"]}
{"id": "C31", "title": "Jacobian and affine arithmetic agree", "statement": "Converting to Jacobian coordinates, operating (double, negate, add or subtract two Jacobian points, compare) and converting back gives the affine result for all points and all representations. The mixed addition Jacobian += Affine is exact unless both points are finite with the same x; in that case it returns the double when x = y*z for the representation at hand and zero otherwise, so P + P is wrong (deviation).", "quantifier": "every pair of points in every Jacobian representation", "why_tests_cant": "Special cases have probability 2^-250 in random tests.", "anchors": ["algebra/elliptic-curve/src/jacobian.rs"]}
{"id": "C32", "title": "wNAF recoding is exact and sparse", "statement": "For every 256-bit scalar n and window w in 2..=14 the recoding's digits d_i satisfy sum d_i*2^i = n, each non-zero digit is odd with |d_i| < 2^(w-1), non-zero digits are at least w positions apart and everything fits in 257 positions (no out-of-bounds write, no overflow). The digits are unique.", "quantifier": "every 256-bit scalar and every window size", "why_tests_cant": "2^256 scalars; the extra 257th digit appears only for scalars near 2^256.", "anchors": ["algebra/elliptic-curve/src/wnaf.rs: non_adjacent_form"]}
{"id": "C33", "title": "Scalar multiplication computes the multiple", "statement": "Multiplying a point by a scalar with double-and-add (affine or Jacobian) or with wnaf::mul yields the k-fold sum of the point for every 256-bit scalar. base_mul with the precomputed generator table does so for every scalar below the group order n except n - 94, where it returns zero. double_base_mul yields the sum of the two multiples whenever its mixed additions never meet equal x coordinates, and panics for a zero second point. double_mul is wrong: it tests the sign of the other scalar's digit (31 P + 0 Q gives 32 P).", "quantifier": "every point and scalar", "why_tests_cant": "2^256 scalars.", "anchors": ["algebra/elliptic-curve/src/curve.rs: Mul", "algebra/elliptic-curve/src/wnaf.rs: mul, base_mul, double_mul, double_base_mul"]}
{"id": "C34", "title": "Signatures produced by sign are accepted by verify", "statement": "For every private key d other than 0 and n - 94, digest and nonce stream for which sign returns a signature, verification with the matching public key accepts it, provided the run of verify adds no two points with equal x coordinates; verify accepts exactly the solutions of the ECDSA equation under that proviso. Deviations: without the proviso a signature by sign can be rejected (private key 1); the keys 0 and n - 94 have the zero public key, on which verify panics; verify panics on r = 0, w = 0 or a point off the curve; (r, -w) is accepted whenever (r, w) is.", "quantifier": "every private key, digest and nonce stream", "why_tests_cant": "Key and digest spaces of 2^251.", "anchors": ["crypto/elliptic-curve-crypto/src/private_key.rs: sign", "crypto/elliptic-curve-crypto/src/public_key.rs: verify"]}
{"id": "C35", "title": "Merkle tree index arithmetic", "statement": "For every index in the tree: parent, left/right child, sibling, neighbours, depth, offset and the (depth, offset) constructor are mutually consistent; children partition; the path to the root has length depth; layer iteration visits each node of a layer once in order; concat composes paths; the last common ancestor of two different nodes of one layer is their deepest common ancestor. Deviations: last_common_ancestor of equal indices, or of an index and its ancestor, is not an ancestor; the children of a node at depth 63 lose the top bit; is_right_most and right_neighbor of the last index usize::MAX panic in debug.", "quantifier": "every index up to usize::MAX", "why_tests_cant": "All 2^64 indices.", "anchors": ["crypto/merkle-tree/src/index.rs: Index"]}
{"id": "C36", "title": "Merkle opening completeness", "statement": "For any leaves (a power-of-two number) and any non-empty set of leaf indices, given in any order and with repetitions, the proof produced by open is accepted by verify against the tree's commitment when presented with the true leaves - for every number of in-memory skipped layers.", "quantifier": "every tree size, leaf values, index multiset and skip-layer count", "why_tests_cant": "All index subsets of all tree sizes.", "anchors": ["crypto/merkle-tree/src/tree.rs: open, from_leaves_skip_layers, node_hash", "crypto/merkle-tree/src/proof.rs: verify", "crypto/merkle-tree/src/commitment.rs"]}
{"id": "C37", "title": "Merkle opening soundness (binding)", "statement": "If verify accepts a proof for leaves at some indices against the commitment of a tree and any presented leaf hash differs from the tree's leaf hash at that index, then verification itself hashed a pair that collides with the children of a node of that tree. Verification never panics, and two different leaves at one index are refused. Deviation: with no leaves presented, verify accepts every proof against every commitment (the presented indices are not compared with the proof's).", "quantifier": "every tree, proof, index list and claimed leaf list", "why_tests_cant": "Quantifies over all adversarial proofs.", "anchors": ["crypto/merkle-tree/src/proof.rs: verify", "crypto/merkle-tree/src/node.rs"]}
{"id": "C38", "title": "Merkle proof size prediction", "statement": "Commitment::proof_size(indices) equals the number of hashes in the proof that open produces for these indices, and from_hashes accepts exactly lists of that length.", "quantifier": "every tree size and index multiset", "why_tests_cant": "All index subsets of all tree sizes.", "anchors": ["crypto/merkle-tree/src/commitment.rs: proof_size, sort_indices", "crypto/merkle-tree/src/proof.rs: from_hashes", "crypto/merkle-tree/src/tree.rs: open"]}
{"id": "C39", "title": "Prover and verifier transcripts agree", "statement": "If the verifier channel replays, in the same order and kinds, the messages and challenge draws of the prover channel, then it reads back the identical messages, draws identical challenges, ends with identical coin state, and consumes the proof exactly (at_end). The transcript is binding: two provers performing the same kinds of operations that end with the same coin digest have written identical proofs from identical seeds, or exhibit a collision of the hash. Deviation: in release builds the verifier takes any 32 bytes as a field element, including values not below the modulus; debug builds panic on these.", "quantifier": "every finite sequence of channel operations of all kinds", "why_tests_cant": "Unbounded interaction histories.", "anchors": ["crypto/stark/src/channel.rs: PublicCoin, ProverChannel, VerifierChannel"]}
{"id": "C40", "title": "Challenge field elements are canonical and deterministic", "statement": "A field element drawn from the public coin is the first of the successive challenges (hash of digest and counter, low 252 bits kept) that is below the modulus, so it is always canonical and a function of digest and counter only; successive draws use strictly increasing counters, so no two draws between writes share a hash input. Deviations: draws are not separated from writes (writing 24 zero bytes and the counter yields as new digest exactly the value of a draw), and the proof-of-work seed is the digest itself, so two consecutive draws of it coincide.", "quantifier": "every coin state and hash function", "why_tests_cant": "All hash outputs including the rejected ones.", "anchors": ["crypto/stark/src/channel.rs: RandomGenerator<FieldElement> for PublicCoin"]}
{"id": "C41", "title": "Proof of work: solve finds the least valid nonce under any schedule", "statement": "verify accepts exactly the nonces whose hash, read as a 256-bit number, has at least `difficulty` leading zero bits. The nonce returned by the single-threaded solver is the least such nonce, and it finds any below u64::MAX. For every number of threads and every interleaving of their relaxed atomic accesses (stale loads and spurious compare-exchange failures included), when all threads of the parallel solver have finished the result is the least valid nonce; no thread is ever stuck. with_difficulty panics exactly for difficulties above 255.", "quantifier": "every seed, difficulty, hash function, thread count and interleaving", "why_tests_cant": "Concurrency schedules.", "anchors": ["crypto/stark/src/proof_of_work.rs: ChallengeSeed::with_difficulty, Challenge::verify, Challenge::solve, fetch_min"]}
{"id": "C42", "title": "Dense polynomial evaluation and division by a point", "statement": "evaluate(x) equals sum c_i x^i; degree() is the index of the highest non-zero coefficient; divide_out_point_into(z, c, target) adds c*(P(X)-P(z))/(X-z) to target, so that multiplying the quotient back by (X-z) recovers P(X)-P(z); low_degree_extension evaluates the polynomial on the shifted coset in bit-reversed order. Construction panics unless the number of coefficients is a power of two, and == on polynomials is only equality of their values at one fixed point (two different polynomials can compare equal).", "quantifier": "every polynomial and point", "why_tests_cant": "Unbounded degree.", "anchors": ["crypto/stark/src/polynomial.rs: DensePolynomial"]}
{"id": "C43", "title": "Evaluating an expression through the evaluation graph gives its value", "statement": "Evaluating a RationalExpression directly gives its mathematical value and panics exactly where it has none (zero divisor, missing trace cell, unsubstituted claim polynomial). Compiling it to the AlgebraicGraph - with common subexpressions shared, constants and powers of X folded, periodic parts tabulated and unused nodes removed - and reading the graph row by row gives the same value in every row of the coset, for any job size that is a multiple of the chunk size, provided subexpressions that agree at the graph's pseudorandom point agree on the coset. Deviations: an expression containing a constant equal to the graph's public seed is silently evaluated wrongly (the constant is taken for X), and a trace offset reaching back further than the trace length panics in the graph.", "quantifier": "every expression, trace table, coset, seed function, job size and row", "why_tests_cant": "All expression trees, tables, coset sizes and row positions; node sharing depends on hash values that a test cannot enumerate.", "anchors": ["crypto/stark/src/algebraic_dag.rs: AlgebraicGraph::{new, expression, op, hash, simplify, period, lookup_tables, tree_shake, init, next}", "crypto/stark/src/rational_expression.rs: evaluate", "crypto/stark/src/prover.rs: get_constraint_polynomials"]}
{"id": "C44", "title": "FRI folding by prover and verifier agree and halve the degree", "statement": "Folding a layer of evaluations of a polynomial (k = 1..4 reductions) yields the layer of evaluations of the folded polynomial (twice the even part plus challenge times the odd part, half the coefficients); on every layer, whatever it contains, the verifier's fold of coset i equals element i of the layer the prover computes for the same challenge; the last layer of a polynomial within the degree bound is sent as exactly its coefficients, and the verifier's final check accepts exactly the layer's values. Layout entries of 0 or above 4 make the prover panic.", "quantifier": "every layer, challenge, coset, number of reductions, layer size and polynomial", "why_tests_cant": "All layers and challenges.", "anchors": ["crypto/stark/src/prover.rs: perform_fri_layering", "crypto/stark/src/verifier.rs: fri_fold, fri_single_fold"]}
{"id": "C45", "title": "Query indices: prover and verifier derive the same sorted in-range list", "statement": "From the same coin state, prover and verifier derive the identical list of query indices: the requested number of 64-bit words of successive coin hashes, each reduced into [0, domain size), sorted ascending, and both coins advance by the same number of draws. The list is not deduplicated: equal words, and any list longer than the domain, give repeated indices.", "quantifier": "every coin state, hash function, number of queries, power-of-two domain size and sorting routine", "why_tests_cant": "All hash outputs and domain sizes; a test sees a few transcripts.", "anchors": ["crypto/stark/src/prover.rs: get_indices", "crypto/stark/src/verifier.rs: get_indices"]}
{"id": "C46", "title": "Trace table layout", "statement": "A TraceTable of R rows and C columns stores each (row, column) in its own cell: a new table is zero, writing one cell changes no other, accesses outside panic, rows and columns are read back in order, and interpolate returns for each column the polynomial with R coefficients whose values at the powers of the trace generator are that column. iter_column does not check its column number: column C yields column 0 without its first row.", "quantifier": "every table shape and index", "why_tests_cant": "All shapes.", "anchors": ["crypto/stark/src/trace_table.rs"]}
{"id": "C47", "title": "Combined components are accepted exactly if their parts are", "statement": "The horizontal, vertical and folded combinations of components write each cell of each part's trace table to its own cell of the combined table (and the cells of a fold's padding stay zero), and checking the combination succeeds exactly if checking every part succeeds: for horizontal combinations always; for folds if the part's constraints select rows only; for vertical combinations if the elements have a common claim and their constraints do not reach outside of the element's rows. The Test component's table is its recurrence, its check always succeeds, its constraints admit no other table, and its combinations check. Deviations: vertical combinations use the first element's claim for all of them, turn cyclic references into references to the neighbouring element (so that two accepted elements can be rejected together), and panic for sizes that are not a power of two; horizontal combinations of different sizes panic.", "quantifier": "every component (any claim, witness, constraints and trace function), combination, size, build profile and cell", "why_tests_cant": "All components, sizes and positions; the unit tests combine only the one Test component.", "anchors": ["crypto/stark/src/component/vertical.rs: Vertical", "crypto/stark/src/component/horizontal.rs: Horizontal", "crypto/stark/src/component/fold.rs: Fold", "crypto/stark/src/component/test.rs: Test", "crypto/stark/src/component/mod.rs: Component::check", "crypto/stark/src/component/empty.rs: Empty"]}
{"id": "C48", "title": "Default parameters of a constraint system", "statement": "The default FRI layout is a list of folds each between 1 and 3 (so implemented by the prover) whose sum leaves a final layer of 2^8 (or, for traces of at most 2^8 rows, 1) times the blowup, for every power of two trace length, and is empty only for one row; constraint systems can be made exactly for trace lengths with a root of unity, and the optional parameters override the defaults. security_bits counts one bit per query pair more than its documented formula, and max_proof_size panics (debug profile) for every trace of at most 256 rows with the default layout.", "quantifier": "every trace length and parameter choice", "why_tests_cant": "All k.", "anchors": ["crypto/stark/src/constraints.rs: default_fri_layout, from_expressions, from_expressions_detailed, security_bits, max_proof_size"]}
{"id": "C49", "title": "Degree bound of constraint expressions", "statement": "The numerator and denominator degrees computed for an expression bound the degrees of a quotient of polynomials that it equals wherever it is defined, when trace columns are polynomials below the given degree; trace_degree counts them in multiples of the trace degree; substituting claim polynomials within their bounds does not raise them; the combination of constraints adjusts every constraint to the same degree bound and equals the random linear combination. The bound is wrong for a polynomial applied to an expression whose denominator has the larger degree, e.g. 1 + 1/X.", "quantifier": "every expression and trace length", "why_tests_cant": "All expression trees.", "anchors": ["crypto/stark/src/rational_expression.rs: degree, degree_impl, substitute_claim", "crypto/stark/src/constraints.rs: degree, combine"]}
{"id": "C50", "title": "MmapVec behaves as a bounded vector", "statement": "For every history of push, truncate, clear, resize, extend, extend_from_slice and indexed assignment on a vector made by with_capacity or zero_initialized, a MmapVec has the length, elements and panics of a list bounded by the capacity; clone and equality agree with the lists. truncate destroys exactly the removed elements. Deviations: push and assignment run the destructor on the slot's stale bytes, so a value removed by truncate or clear is destroyed twice when its slot is reused, and resize to a smaller size never destroys the removed elements; in a release build with_capacity wraps the byte count and maps too little memory when capacity * size_of overflows (the debug build panics).", "quantifier": "every history of operations", "why_tests_cant": "Unbounded operation histories.", "anchors": ["utils/mmap-vec/src/mmap_vec.rs: MmapVec"]}
{"id": "C51", "title": "Hash combination and masking", "statement": "The hash of a slice is its single element's hash or the masked Keccak of the concatenated element hashes; every masked hash has 32 bytes with the last 12 zero; the hash of a U256 or FieldElement is the 32 big-endian bytes of the value or of its Montgomery representation, injectively; two slices, neither of length one, with equal hashes have equal element hashes or exhibit a collision of the first 20 bytes of Keccak. Deviation: a one-element slice is not separated from its element, so a list and the one-element list holding its hash collide.", "quantifier": "every list of hashable values and every underlying hash", "why_tests_cant": "Unbounded lists.", "anchors": ["crypto/hash/src/hashable.rs", "crypto/hash/src/masked_keccak.rs"]}
{"id": "C52", "title": "Compile-time field literal macro equals run-time conversion", "statement": "The u256h! and field_element! literals of any string of at most 64 hexadecimal digits (an even number) are the number the string spells, and its Montgomery representation modulo the field prime (no addition overflows in the macro); for values below the modulus this is the representation from_uint and the const conversion give at run time; any other string is a compile error.", "quantifier": "every 256-bit literal", "why_tests_cant": "The domain has 2^256 (or 2^512) points; random testing practically never hits the carry/borrow corner cases.", "anchors": ["utils/macros-lib/src/lib.rs: montgomery_convert, bytes_to_limbs", "algebra/primefield/src/proth_field.rs: from_uint_const"]}
{"id": "C53", "title": "Constraint checking on the trace detects exactly the violated constraints", "statement": "For constraints written as products of division free factors and inverses, check_constraints accepts precisely when at every row where a denominator vanishes some factor of the numerator vanishes too, and otherwise reports the first violation by row and constraint; a constraint without denominator is always accepted. With divisions inside divisors the verdict can be wrong both ways, and check_specific_constraint uses the point of the previous row.", "quantifier": "every trace and constraint system", "why_tests_cant": "All traces.", "anchors": ["crypto/stark/src/constraint_check.rs", "crypto/stark/src/rational_expression.rs: check"]}
{"id": "C54", "title": "Out-of-domain consistency", "statement": "For a trace that the constraint checker accepts (constraints written as quotients selecting rows, possibly referring to claim polynomials of at most their declared degree in the numerators), the prover can compute its constraint polynomials, and at every sample point outside the trace domain the constraint value the verifier recomputes from the claimed trace values equals the one it recombines from the claimed constraint polynomial values. Conversely, whatever polynomials the prover uses, if the comparison succeeds at more points than the degree bounds allow then the combined constraint is the recombined polynomial everywhere. The combined quotient polynomial the prover commits to has, at every query point, the value the verifier computes from the opened trace and constraint values.", "quantifier": "every trace table, constraint system, combination coefficients, sample point and query point, over every field with the required roots of unity", "why_tests_cant": "All points in the field.", "anchors": ["crypto/stark/src/verifier.rs: oods_value_from_trace_values, oods_value_from_constraint_values, out_of_domain_element", "crypto/stark/src/prover.rs: extract_trace_coset, get_constraint_polynomials, oods_combine", "crypto/stark/src/constraints.rs: Constraints::combine, trace_arguments, substitute"]}
{"id": "C55", "title": "Proof length: trailing bytes are detected, truncated proofs panic", "statement": "verify reads exactly the bytes of the proof: if it accepts a proof, then it rejects the same proof followed by any non-empty suffix with the error ProofTooLong, and on every strict prefix of it it panics (deviation: a panic rather than an error). The same holds of the channel for any sequence of operations.", "quantifier": "every constraint system, claim, seed, accepted proof (whoever made it), suffix and truncation point", "why_tests_cant": "All byte strings.", "anchors": ["crypto/stark/src/channel.rs: VerifierChannel, at_end", "crypto/stark/src/verifier.rs: verify"]}
{"id": "C56", "title": "Shifted copies do not depend on the number of threads", "statement": "clone_shifted(source, c) sets destination[i] = source[i]*c^i for every index present in both slices and leaves the rest; the parallel version gives exactly the same slice for every number of threads and every order in which its chunks are processed.", "quantifier": "every pair of slices, cofactor, thread count and schedule", "why_tests_cant": "The chunk size depends on the thread count of the machine the tests run on, and schedules are not enumerable.", "anchors": ["algebra/primefield/src/fft/mod.rs: clone_shifted"]}
{"id": "C57", "title": "Completeness of the whole protocol: an honest proof is accepted", "statement": "For every table that satisfies its constraints (constraints that are quotients selecting rows, degree within the blowup, FRI layout within the size; the constraints may refer to claim polynomials, of at most their declared degree and not in a denominator), prove neither panics nor stops with an error before it checks its own proof: it writes a proof, provided field elements can be drawn, the proof of work can be solved and the coefficients drawn after the root of the trace cause no collision in the evaluation graph. The bytes prove writes are accepted by verify with the same constraints, claim polynomials and seed, in both build profiles and for every order of the parallel loops, and prove returns them; provided moreover the sample point is neither on the trace domain nor related to the evaluation domain.", "quantifier": "every field and engine, every table, constraint system, list of claim polynomials, blowup, FRI layout, number of queries, seed, hash function, representation of field elements, proof-of-work solver and schedule", "why_tests_cant": "Tests prove a handful of statements; completeness is about every satisfying table, every parameter and every random choice outside the named exceptions.", "anchors": ["crypto/stark/src/prover.rs: prove", "crypto/stark/src/verifier.rs: verify", "crypto/stark/src/channel.rs"]}
{"id": "C58", "title": "What acceptance means: every check of the protocol has been made", "statement": "If verify returns Ok then the proof holds two roots, the claimed values at the sampled point, one root for each FRI layer, the coefficients of the last layer (as many as the degree bound allows) and a nonce, in that order; every challenge (constraint coefficients, sampled point, combination coefficients, FRI points, queries) is derived from the hash of the seed and of all that precedes it; the nonce is a proof of work on all that precedes it; the random combination of the constraints at the sampled point, computed from the claimed trace values and the claim polynomials, is the value claimed for the constraint polynomials; at every queried position there are a trace row and a constraint row with Merkle paths to the roots; and the quotient computed from them is in an authenticated coset of the first FRI layer, each coset folds (interpolate, evaluate at the challenge, scale by 2^m) to a value of the next, and the last is the value of the last layer polynomial. A path to the root of a known tree leads to that tree's leaf unless the hash has a collision, which the path exhibits.", "quantifier": "every proof accepted, whoever made it; every constraint system with power of two length and blowup, claim polynomials, FRI layout, seed, field, hash function and build profile", "why_tests_cant": "Tests run honest proofs and a few corrupted ones; that no check is missing is about every proof a prover could send.", "anchors": ["crypto/stark/src/verifier.rs: verify, out_of_domain_element, fri_fold, get_indices", "crypto/stark/src/channel.rs: VerifierChannel", "crypto/merkle-tree/src/proof.rs: verify"]}
{"id": "C59", "title": "The assembly routines agree with the portable arithmetic", "statement": "With the assembly back end enabled, the conditional subtraction used by field addition returns x - m if x >= m and x otherwise, the same limbs as the portable code; the assembly multiplications return the product modulo 2^256 and the full 512 bit product; the assembly Montgomery reduction for Proth moduli returns the canonical representative of t / 2^256. None depends on what the registers, flags and memory held before. The assembly Montgomery multiplication does the same except for the arguments where a carry of its first row is added to the wrong limb.", "quantifier": "all 256 bit operands (reduced where the routine requires it), all moduli, all prior contents of registers, flags and result memory", "why_tests_cant": "Carries out of a whole chain of additions happen for about one in 2^64 random operands; the wrong result of the Montgomery multiplication is of this kind.", "anchors": ["algebra/u256/src/arch/x86_64/mod.rs: reduce_1", "algebra/u256/src/arch/x86_64_adx/mod.rs: proth_redc_asm, mul_1_asm, mul_add_1_asm, full_mul_asm2, mul_asm, full_mul_asm, mul_redc"]}
{"id": "C60", "title": "Optional codecs: SCALE and serde encodings of integers and field elements round-trip", "statement": "The SCALE encoding of an integer is its 32 bytes, least significant first; decoding any 32 bytes gives the integer they stand for and leaves the rest of the input, and fewer than 32 bytes give an error. A field element is encoded as the integer below the modulus it stands for, and decoding gives it back, in SCALE and in both forms (text, binary) of serde. Decoding is not injective in release builds and panics in debug builds when the encoded integer is not below the modulus.", "quantifier": "all 256 bit integers, all elements of any prime field meeting the parameter conditions, all byte strings, both build profiles, both serde forms", "why_tests_cant": "Tests encode a few values; that no bytes are misread and that decoding inverts encoding is about all 2^256 values.", "anchors": ["algebra/u256/src/u256.rs: derive Encode, Decode", "algebra/primefield/src/parity_codec.rs: Encode, Decode", "algebra/primefield/src/serde.rs: Serialize, Deserialize"]}
{"id": "C61", "title": "Random integers and field elements are uniform", "statement": "If the generator delivers uniform words, U256 values are uniform over all 256 bit numbers, values from a range low..high or low..=high lie in the range and each is produced by the same number of raw numbers (2^s consecutive ones), rejected raw numbers are skipped, and at least half of the raw numbers are accepted; a random field element is canonical and every element is equally likely. An empty range is not refused: sampling from it never returns.", "quantifier": "all bounds, all words delivered by the generator, any number of rejected draws, all prime fields meeting the parameter conditions", "why_tests_cant": "Uniformity is a statement about all 2^256 raw numbers; sampling cannot show a bias of a few in 2^256.", "anchors": ["algebra/u256/src/rand.rs: Standard, UniformU256 (new, new_inclusive, sample)", "algebra/primefield/src/rand.rs: sample"]}
{"id": "C62", "title": "Constraint idioms mean what they are used for", "statement": "Conditions on the cells of a trace are imposed by multiplying them with every_row, on_row(i) or on_loop_rows(2^j), as the examples and the book do. A table passes check_constraints exactly if each condition holds on all rows but the last, on row i modulo the number of rows, or on the rows but the last of each block of 2^j rows, respectively; otherwise the reported failure is the first one by row and then by constraint. A periodic column made with ifft and permute has the given values in turn. Systems written this way, with the defaults of from_expressions, on tables that pass the check meet the requirements of completeness (C57).", "quantifier": "all conditions without divisions, all tables with a power of two of rows, all places, all lists of periodic values, all fields with roots of unity", "why_tests_cant": "A constraint that is imposed on one row too few is only noticed with a table that is wrong in just that row.", "anchors": ["crypto/stark/examples/{small_fib,mimc_cubic,mimc_quadratic,mimc_hash,vdf}.rs: on_row, every_row, on_loop_rows, periodic", "crypto/stark/src/constraint_check.rs: check_constraints", "crypto/stark/src/constraints.rs: from_expressions"]}
{"id": "C63", "title": "The example claims are proved and only true claims have a valid trace", "statement": "For the Fibonacci, MiMC (cubic, quadratic), MiMC hash, MiMC authentication path, VDF, constant and claim polynomial examples: a table satisfies the constraints of a claim exactly if it holds the states of the claimed computation (from the public input to the public output); the trace function of a true claim returns this table and panics for a false claim; constraints and trace of a true claim meet the requirements of completeness (C57). Exceptions: a Fibonacci claim whose index is a power of two constrains row 0 instead of the claimed row; the step of the VDF example is not the cube in the quadratic extension that its comment announces, and is not injective; the MiMC hash step is not the cube either. The constraints of the authentication path example accept a table for every element if the root is a hash of any two values, as they do not connect the hashes: its proofs say nothing about the element.", "quantifier": "all claims, witnesses, round constants, trace lengths that are powers of two with enough roots of unity; in particular the field and the lengths of the examples", "why_tests_cant": "The examples are run on one claim each; a missing constraint still accepts the honest trace.", "anchors": ["crypto/stark/examples/small_fib.rs", "crypto/stark/examples/large_fib.rs", "crypto/stark/examples/mimc_cubic.rs", "crypto/stark/examples/mimc_quadratic.rs", "crypto/stark/examples/mimc_hash.rs", "crypto/stark/examples/vdf.rs", "crypto/stark/examples/constant.rs", "crypto/stark/examples/claim_polynomial.rs", "crypto/stark/src/traits.rs: Verifiable, Provable", "crypto/stark/examples/mimc_tree.rs"]}
{"id": "C64", "title": "The Pedersen Merkle tree example proves what it claims, up to the representation of the inputs", "statement": "The component of the Pedersen Merkle tree example: a table is accepted by the constraints of one layer exactly if two columns hold the remaining bits of the two inputs, every row adds the points selected by its bits along a line of the given slope, the rest after 252 bits is 0 and the first point is the shift point; a table is accepted by the tree for (leaf, root) exactly if all layers are, the leaf is one of the inputs of the first layer, the abscissa of each layer's last point is an input of the next layer and the last one is the root. Unless an addition degenerates, the last point is shift + sum of the selected points, the Pedersen hash of two numbers below 2^252 that represent the inputs modulo p. For a witness without degenerate additions the root computed by Witness::new is the root of the path of Pedersen hashes, its trace exists and passes Component::check; with one the trace panics. The constraints have degree 2 and meet the requirements of completeness: the proof written for such a witness is returned by Component::prove and accepted by Component::verify, up to the sample points that C57 excludes. Exceptions: as p is below 2^252, an input below 2^252 - p has two representations, and both are accepted: for leaf 0 and sibling 0 two different roots are accepted. The addition of a point to itself is not constrained.", "quantifier": "all layer sizes that are powers of two, depths, tables, leaves, paths, tables of points on a curve, fields with roots of unity; the refutation for the points of the crate", "why_tests_cant": "The tests check the honest trace of a few paths: missing constraints and second decompositions only show on tables that the trace function does not produce.", "anchors": ["crypto/stark/examples/pedersen_merkle/component.rs: MerkleTreeLayer, MerkleTree, get_slope", "crypto/stark/examples/pedersen_merkle/inputs.rs: Claim, Witness", "crypto/stark/examples/pedersen_merkle/pedersen_points.rs: merkle_hash, SHIFT_POINT, PEDERSEN_POINTS", "crypto/stark/src/component/vertical.rs"]}
{"id": "C65", "title": "A proof is accepted for the claim it was made for, and which other claims it is accepted for", "statement": "Component::verify of the proof returned by Component::prove succeeds for the claim of the witness. A user expects that it fails for other claims. It does not: Component::prove and Component::verify use an empty channel seed, so no challenge depends on the claim, and an accepted proof is accepted for another constraint system that differs in constants only exactly if one weighted sum of the constraint values, at one point and for one assignment of the trace cells, is the same. For the Pedersen Merkle tree of the examples the claims (leaf, root) an accepted proof is accepted for are the solutions of K1*((leaf-x)(leaf-y) - c) + K2*(root - r) = 0 for constants K1, K2, x, y, c, r: it is accepted for every leaf with some root, or for every root. Every proof that prove returns is accepted for a claim other than its own.", "quantifier": "all fields with roots of unity, hash functions, constraint systems, channel seeds, byte strings given as proofs; all sizes, depths and tables of the Pedersen tree; all witnesses", "why_tests_cant": "The tests verify honest proofs against their own claims; that a proof for one claim is also accepted for others shows only for claims computed from the challenges.", "anchors": ["crypto/stark/src/component/mod.rs: Component::prove, Component::verify", "crypto/stark/src/verifier.rs: verify", "crypto/stark/src/constraints.rs: Constraints::from_expressions", "crypto/stark/examples/pedersen_merkle/main.rs", "crypto/stark/examples/pedersen_merkle/component.rs: MerkleTree"]}
{"id": "C66", "title": "Proofs of the example claims are bound to the claim by the channel seed", "statement": "Verifiable::verify accepts every proof that Provable::prove returns for the same claim. The channel seed of a claim of the examples (Constant, ClaimPolynomial, both Fibonacci claims, the four MiMC claims, the VDF claim, the Pedersen claim as bytes) determines the claim among the claims of its example, so that provers and verifiers of different claims start from different states unless the hash function has a collision. Exceptions: the claim of mimc_tree has a field start_left that is not in the seed; an accepted proof is accepted for this value of start_left only, or, if one number computed from the proof is 0, for all values. Seeds do not tell the examples apart. Verifiable::verify of the claim of claim_polynomial never succeeds, since its constraints still contain the claim polynomial.", "quantifier": "all claims of the examples, fields, hash functions, encodings of field elements below the modulus; all witnesses and proofs", "why_tests_cant": "The tests prove and verify one claim; that no two claims share a transcript ranges over pairs of claims, and which other claims a proof fits depends on challenges.", "anchors": ["crypto/stark/src/traits.rs: Verifiable::verify, Provable::prove, Provable::check, Provable::check_specified", "crypto/stark/examples/*.rs: Claim::constraints (seed)", "crypto/stark/examples/pedersen_merkle/inputs.rs: From<&Claim> for Vec<u8>", "crypto/stark/examples/mimc_tree.rs: Claim::start_left", "crypto/stark/src/channel.rs: ProverChannel::new, VerifierChannel::new"]}
{"id": "C67", "title": "proof_serialize writes every part of the proof, and nothing is lost", "statement": "proof_serialize appends to its buffer one text: the parts of the proof (roots, claimed values, FRI roots, last layer coefficients, nonce, queried values and Merkle hashes of the trace, the constraints and each FRI layer) in hexadecimal under their names, and these parts in this order are the bytes of the proof. It neither fails nor panics on a proof that the verifier accepts, and then the parts are the whole proof. Two accepted proofs with the same text are equal, whatever their constraints, claims and seeds. Between braces the text is JSON if no list is empty. Exceptions: the text of an empty list is empty, and an accepted proof can have one (the Merkle proof of a layer all of whose leaves are queried), which makes the text invalid JSON; bytes after the parts do not change the text, though the verifier rejects such a proof.", "quantifier": "all constraint systems, claim polynomials, seeds, byte strings as proofs, buffers, hash functions, field implementations in which reading an element and writing it again gives the same bytes, both build profiles", "why_tests_cant": "There is no test of the serializer; that it follows the same reads and challenges as the verifier, and that the text is injective, ranges over all layouts, query sets and proofs.", "anchors": ["crypto/stark/src/solidity_seralizer.rs: proof_serialize, SoliditySeralize::sol_encode", "crypto/stark/src/verifier.rs: verify", "crypto/stark/src/channel.rs: VerifierChannel, Replayable"]}
{"id": "C68", "title": "The generated Solidity contract computes the verifier's value of the constraints", "statement": "For the contract that generate writes for the constraint polynomial: if the call data hold the point, the values of the claim polynomials and periodic columns, the coefficients and the trace values, in the order the generator fixes, then running the contract returns exactly the value that the verifier computes by combining the constraints with the same coefficients and evaluating them at that point, with the inverses computed by one batch inversion. The modulus of the template is the modulus of the field. The generator returns a contract for all constraints that can be combined, if no divisor holds a division, polynomials are applied to powers of the point and exponents fit. The contract of a periodic column evaluates its polynomial. Exceptions: a division inside a divisor makes the generator panic or the contract return a wrong value; polynomials that agree at one fixed point are taken for each other; where a divisor is zero the contract returns a number while the verifier has none.", "quantifier": "all constraint systems with claim polynomials, points, trace values, coefficients, hash functions that separate the expressions of the constraints, iteration orders of the sets, all prime field parameters the crate accepts", "why_tests_cant": "The contract is text produced by a program for every constraint system; that each memory offset, power and inverse is the one the verifier means ranges over all expressions, and no test runs the contract.", "anchors": ["crypto/stark/src/solidity_verifier.rs: generate, write_oods_poly, soldity_encode, autogen_periodic", "crypto/stark/assets/OodsPoly.sol", "crypto/stark/assets/Periodic.sol", "crypto/stark/src/constraints.rs: Constraints::combine"]}
{"id": "C69", "title": "The counters of the logging allocator are exact under every interleaving of threads", "statement": "When no call is in progress, allocated, total_allocated and num_allocations are, modulo 2^64, the bytes given minus the bytes freed, the bytes given and the number of successful allocations, and largest_allocated is the largest of them, whatever the interleaving of calls before. At every moment allocated is at least what the program owns and at most what has been given and not yet been freed. peak_allocated is a value that allocated has had, and no value of allocated exceeds it by more than largest_allocated. A request of 10^12 bytes or more returns null without reaching the system; a non-null result came from the system. No thread waits for another. Exception: peak_allocated is not the peak: it takes the value before the addition, so after one allocation it is zero.", "quantifier": "all numbers of threads, histories of alloc and dealloc, interleavings of their atomic operations, results of the system allocator, stale values of relaxed loads and spurious failures of compare_exchange_weak", "why_tests_cant": "The counters are updated by separate relaxed atomic operations; tests run few schedules and no stale loads or spurious failures.", "anchors": ["utils/logging-allocator/src/logging_allocator.rs: LoggingAllocator::alloc, dealloc, fetch_max, allocated, peak_allocated, total_allocated, largest_allocated, num_allocations"]}
{"id": "C70", "title": "The Merkle verifier of the Ethereum contract decides as the library's verifier", "statement": "For two or more claimed leaves, sorted by position, verify_merkle_proof of the contract ends, and returns true exactly when the library's Proof::verify accepts the same claims with the hashes of the decommitment; what follows the used hashes in memory and what the scratch space holds do not matter. So an opening made by the library for two or more positions is accepted on chain, and true on chain binds the claimed leaves to the committed ones, up to a collision of the hash. No claims, or different numbers of leaves and positions, revert. Exception: with a single claim the contract takes an odd node for its own sibling and rejects valid openings.", "quantifier": "all hash functions, tree depths below 64, sorted sets of claims, decommitments, contents of memory and roots", "why_tests_cant": "The contract works in place on a ring buffer whose left-over words depend on the whole set of positions; tests try a few sets of positions, and no single position.", "anchors": ["crypto/stark-verifier-ethereum/contracts/merkle.sol: verify_merkle_proof", "crypto/merkle-tree/src/proof.rs: Proof::verify"]}
{"id": "C71", "title": "The challenges, the proof of work and the queries of the Ethereum contract are those of the library", "statement": "Whatever is written to and drawn from the coin, in whatever order and from whatever seed, the contract draws the same words and field elements as the library and ends with the same digest and counter. The contract accepts a proof of work nonce exactly when the library does. It chooses the same queries as the library, in the same order; its sort gives the same elements in ascending order for every array. Exceptions: after the queries the counters can differ by one, and read_many_bytes32 always returns an empty array.", "quantifier": "all hash functions with 32 byte results, seeds, sequences of writes and draws, nonces, difficulties, numbers of queries and arrays", "why_tests_cant": "Agreement of two programs on every transcript; tests compare a few fixed transcripts.", "anchors": ["crypto/stark-verifier-ethereum/contracts/public_coin.sol: PublicCoin", "crypto/stark-verifier-ethereum/contracts/proof_of_work.sol: check_proof_of_work", "crypto/stark-verifier-ethereum/contracts/fri.sol: get_queries", "crypto/stark-verifier-ethereum/contracts/utils.sol: sort", "crypto/stark/src/channel.rs: PublicCoin, ProverChannel, VerifierChannel", "crypto/stark/src/proof_of_work.rs: Challenge::verify", "crypto/stark/src/verifier.rs: get_indices"]}
{"id": "C72", "title": "The Ethereum contract folds and checks the FRI layers as the library", "statement": "For every layer of values, every increasing set of queried positions and every evaluation point, the contract's fold of a layer (cosets of 2, 4 or 8) goes over exactly the cosets that the queries meet, hashes exactly their values, and gives for each the value that the library's verifier computes, with the inverse of its point, which is the input for the next layer. The inverses for the first layer, the generators of the layers and the decision on the last layer agree with the library. Evaluation of polynomials, reversal of bits and the position of the highest bit are correct. Exceptions: a query drawn twice makes the contract revert, a layout entry of 0 loses the points, and words that are not reduced give other values because the sums overflow.", "quantifier": "all domains up to 2^63 (2^40 where positions are reversed), layers, values, positions, evaluation points, coefficients and words", "why_tests_cant": "Agreement of two programs on every layer and query set; tests run a few fixed proofs.", "anchors": ["crypto/stark-verifier-ethereum/contracts/fri.sol: fold_and_check_fri_layers, fold_layer, fold_coset, fold", "crypto/stark-verifier-ethereum/contracts/primefield.sol: horner_eval, root, expmod", "crypto/stark-verifier-ethereum/contracts/utils.sol: bit_reverse, bit_reverse2, num_bits", "crypto/stark/src/verifier.rs: fri_fold, fri_single_fold, verify"]}
{"id": "C73", "title": "The Ethereum contract's field arithmetic, roots, batch inversion and out of domain check agree with the library", "statement": "For all field elements, the contract's sum, difference, product, power and inverse are the library's, both on plain values and on the stored (Montgomery) words that the proof carries, and the conversions between the two are inverse to each other and reduce any word. The root of order 2^k exists exactly when 2^k divides p - 1, and is the library's root up to 2^63, with the domain points its powers. Batch inversion returns the reduced inverse of every element. The contract accepts the out of domain sample exactly when the library's two values are equal. Exceptions: a zero in a batch gives zeros and does not fail as documented, an empty batch overwrites the word behind the output array, and subtraction of a word above the modulus is wrong.", "quantifier": "all field elements, all words, all orders, all batches, all lists of sample values", "why_tests_cant": "Agreement of two programs on a field of 2^251 elements and on batches of every length; tests try a few.", "anchors": ["crypto/stark-verifier-ethereum/contracts/primefield.sol: from_montgomery, to_montgomery, fmul, fmul_mont, fadd, fsub, fpow, inverse, generator_power, init_eval, lookup, batch_invert", "crypto/stark-verifier-ethereum/contracts/stark_verifier.sol: check_out_of_domain_sample_result", "crypto/stark/src/verifier.rs: oods_value_from_constraint_values", "algebra/primefield/src/prime_field.rs"]}
{"id": "C74", "title": "The Ethereum contract's verifier draws the library's challenges, hashes the right leaves and accepts exactly when all its checks pass", "statement": "For every proof, the contract's verifier draws the same constraint coefficients, out of domain point, combination coefficients and FRI points as the library, in the same order, and ends with the same coin. With one group of values per query it hashes each group and moves each query to its leaf. It does not revert exactly if the proof of work, the commitments, the FRI layers and the out of domain check all pass, each on the challenges drawn before. Exceptions: it never answers true; missing groups of values are not noticed, their hashes are what the array held before, so a proof without constraint values has its constraint commitment checked against the leftovers of the trace check.", "quantifier": "all proofs, parameters, seeds, hash functions, group sizes, queries and numbers of layers", "why_tests_cant": "The order of the transcript must agree for every shape of proof, and the leftovers only show on malformed proofs, which the tests do not contain.", "anchors": ["crypto/stark-verifier-ethereum/contracts/stark_verifier.sol: verify_proof, write_data_and_read_random, check_commitments, prepare_hashes_and_queries", "crypto/stark-verifier-ethereum/contracts/proof_types.sol: StarkProof, ProofParameters", "crypto/stark/src/verifier.rs: verify"]}
{"id": "C75", "title": "The Ethereum contract goes over all FRI layers as the library's verifier", "statement": "For every layer of values, increasing queries, layout of cosets of 2, 4 or 8 and evaluation points: given the values that complete the cosets, the contract accepts the FRI part exactly if the Merkle verifier accepts, for every layer, the hashes of the cosets that the queries meet at their leaves, and the library accepts every value that its own folds reach in the last layer. Cosets of more than eight values and an empty layout revert. This holds for plain values and for the limbs (Montgomery form) that a proof carries.", "quantifier": "all first layers up to 2^40, query sets, numbers of layers, layouts, evaluation points, last layer coefficients, hash functions and Merkle verifiers", "why_tests_cant": "Induction over the number of layers and every set of queries; tests run fixed proofs of a few layers.", "anchors": ["crypto/stark-verifier-ethereum/contracts/fri.sol: fold_and_check_fri_layers", "crypto/stark/src/verifier.rs: verify, fri_fold"]}
{"id": "C76", "title": "The Ethereum contract hashes Merkle leaves and nodes as the library", "statement": "For every leaf of field elements, given by the words of their Montgomery form, and every leaf of 256-bit numbers, of any length: the word that the contract computes for the leaf is the hash of the library, as a big-endian number; the same for an inner node of two hashes. Two leaves have the same word exactly if they have the same hash. So the contract accepts the FRI layers of a proof exactly if its Merkle verifier accepts the library's hashes of the cosets, and the library accepts the values of the last layer.", "quantifier": "all leaves of all lengths, pairs of hashes and hash functions with 32 byte results", "why_tests_cant": "All leaves, of every length and content; tests hash a few.", "anchors": ["crypto/stark-verifier-ethereum/contracts/merkle.sol: merkle_leaf_hash, verify_merkle_proof, HASH_MASK", "crypto/hash/src/hashable.rs: Hashable", "crypto/hash/src/masked_keccak.rs: MaskedKeccak", "crypto/merkle-tree/src/node.rs: Node"]}
{"id": "C77", "title": "The default FRI layout of the Ethereum contract is the library's", "statement": "For every trace length 2^k of the library, k below 64, the contract's default FRI layout is the library's default layout; for every byte k it consists of threes and a last entry of 1 or 2, so that every layer has cosets of 2, 4 or 8 values, which the contract can fold. Refuted for k = 0: the layout is empty and the contract reverts.", "quantifier": "all logarithms of trace lengths", "why_tests_cant": "Holds for every trace length and with it for every number of layers; tests use the lengths of their examples.", "anchors": ["crypto/stark-verifier-ethereum/contracts/default_cs.sol: default_fri_layout", "crypto/stark/src/constraints.rs: Constraints::default_fri_layout"]}
