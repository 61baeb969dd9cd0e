# Formal model of 0xProject/OpenZKP in Rocq

## 1. Overall approach

* The Rust functions are transcribed to total Gallina functions, one by one,
  in `rocq/theories/*Model.v`. Each definition carries a comment with the file
  and lines it models and any simplification made.
* Machine words are `Z` with explicit `mod 2^64` / `mod 2^128`; a `U256` is a
  record of four `Z` limbs with a well-formedness predicate (every limb in
  `[0, 2^64)`).
* A Rust panic (including a debug-profile arithmetic overflow where one could
  occur, an out-of-bounds index, `unwrap` of `None`, `expect`, `assert!`) is
  `None` in the option monad (or an explicit error constructor). Loops are
  structural recursion, folds, or fuel recursion whose out-of-fuel outcome is
  proved unreachable.
* Everything above the field layer is written over an abstract record of field
  operations - the Rust code is generic over `FieldLike` in the same way - and
  proved for every lawful field. The concrete `FieldElement` (Montgomery limbs)
  is proved to be a lawful field, so the general theorems apply to it.
* External functions (Keccak, SHA3, Blake2s, random generators) are universally
  quantified function arguments.
* Specifications live in `*Spec.v` and do not mention the model's helpers.
  Property theorems live in `*Props.v`, with `Print Assumptions` beneath each
  and an `Example` that shows a concrete non-trivial instance.
* Properties the code violates are stated and refuted by a witness (theorems
  with suffix `_refuted`/`_deviation`), see section 4.

## 2. Plan per property

| id | modelled | proof method |
|---|---|---|
| C01 | adc/sbb, add_full, sub_full, neg, cmp on 4 limbs | carry-chain equations, linear arithmetic |
| C02 | mac, mul_full, square_full, mul by u64, mul_inline | one equation per mac, summed |
| C03 | div_2_1, divrem_nby1, div_3by2, divrem_nbym (lists of limbs), div_rem | Knuth D invariant: quotient digit estimate, add-back |
| C04 | mulmod | from C02 + Knuth D |
| C05 | Inv | Newton step: a*r = 1 mod 2^k gives mod 2^2k |
| C06, C07 | lehmer_gcd.rs | invariant: cofactor matrix has determinant +-1, the pair is preserved up to gcd; Jebelean condition guarantees exact quotients |
| C08 | shl/shr/bit/zeros/counts/bitwise | case per branch; testbit extensionality |
| C09 | to/from_bytes_be | base-256 digits induction |
| C10, C11 | decimal and hex text | induction on digit lists |
| C12 | conversions | case analysis |
| C13 | Sum, Product | induction on lists |
| C14 | Pow<u64> | square-and-multiply invariant |
| C15, C16 | generic.rs, proth.rs | REDC equation chain, quotient < 2m |
| C17 | prime_field.rs add/sub/neg/mul | from C01, C15, C16 |
| C18 | constants, primality | Pocklington/Proth certificate, kernel computation of the power |
| C19 | Inv, Div | from C06 |
| C20 | Pow | square-and-multiply invariant |
| C21 | Root | order argument on 2-power exponents |
| C22 | square_root | Euler criterion + Tonelli-Shanks invariant |
| C23 | convert.rs | case analysis |
| C24 | invert_batch | induction on prefix products |
| C25 | GeometricIter as state machine | induction |
| C26 | permute_index, permute | bit reversal spec, permutation induction |
| C27 | fft, ifft recursive | induction on log size, Cooley-Tukey |
| C28, C29 | radix_sqrt, transpose | index bijection; row jobs commute |
| C30 | curve.rs | field identities |
| C31 | jacobian.rs | field identities, representation relation |
| C32 | non_adjacent_form | loop invariant on remaining scalar |
| C33 | curve.rs Mul, wnaf.rs | Horner over digits, group axioms as hypothesis where associativity is needed |
| C34 | private_key.rs, public_key.rs | algebra modulo the group order |
| C35 | index.rs | powers of two, log2 |
| C36-C38 | tree.rs, proof.rs, commitment.rs | queue invariant per layer |
| C39-C40 | channel.rs | simulation between prover and verifier channel |
| C41 | proof_of_work.rs | least witness; interleaving semantics of the shared minimum |
| C42 | polynomial.rs | Horner / synthetic division |
| C43 | rational_expression.rs, algebraic_dag.rs | node-table invariant |
| C44 | prover/verifier folding | even/odd split identity |
| C45 | get_indices | same function of the coin; sorting |
| C46 | trace_table.rs | index injectivity |
| C47 | component/{horizontal,vertical,fold,empty,test,mod}.rs | records of functions; cell maps, value of re-indexed constraints, equivalence of checks |
| C48 | default_fri_layout | arithmetic |
| C49 | degree_impl | induction on expressions over polynomial fractions |
| C50 | mmap_vec.rs | refinement to a list |
| C51 | hash crate | definitional + injectivity of encoding |
| C52 | macros-lib | equality with generic Montgomery |
| C53 | constraint_check.rs | evaluation semantics |
| C54 | oods | algebra |
| C55 | verifier.rs: the whole of verify, channel | every read consumes its bytes; induction on the verifier |
| C56 | prover.rs shifted copies | every split into jobs gives the same values |
| C57 | prover.rs prove, verifier.rs verify | every step of the prover succeeds, from the theorems on its parts (C36, C43, C44, C45, C46, C54); simulation: the verifier follows the prover message by message; with claim polynomials too, by degrees that depend on the declared bounds only (OodsClaimProps) |
| C58 | verifier.rs verify | from the run of the verifier to `AcceptSpec.accepted`: transcript invariant on the channel, Merkle paths out of the verification loop, interpolation for each fold |
| C59 | u256/src/arch/x86_64*/mod.rs (assembly) | a model of the processor instructions used; symbolic execution of each routine from an arbitrary state, carry equations solved by lia; refutation of `mul_redc` by a witness |
| C60 | u256.rs (derived codec), primefield/src/{parity_codec,serde}.rs | little endian digits by induction; the specification `little_endian` gives the byte at each position |
| C61 | u256/src/rand.rs, primefield/src/rand.rs | the generator is a list of words; rejection loop by induction on the rejected draws; counting raw numbers as intervals of length 2^s; refutation for empty ranges by induction on the fuel |
| C62 | examples/*.rs (on_row, every_row, on_loop_rows, periodic), constraint_check.rs | zeros of the factors on the trace domain; inverse transform for periodic columns |
| C63 | examples/{small_fib,large_fib,mimc_cubic,mimc_quadratic,mimc_hash,mimc_tree,vdf,constant,claim_polynomial}.rs | C62 on the conditions of each example; induction on rows against a recursive specification; loop invariant for the trace functions |
| C64 | examples/pedersen_merkle/{component,inputs,pedersen_points}.rs | a constraint on a place of the layers is zero on the rows of this place; induction on the rows against sums on the curve (C31); the digits of the modulus as a second representation of 0 with witnesses for its four additions; the degree of the constraints and the rows their denominators select, then C57 |
| C65 | component/mod.rs prove, verify; verifier.rs | two runs of the verifier model on systems that differ in constants agree up to the last comparison; the combined constraint is linear in the constraint values; the equation solved for the root |
| C66 | traits.rs, the seeds in examples/*.rs | concatenations of strings of fixed length are injective, C65 for the field that is not in the seed |
| C67 | solidity_seralizer.rs proof_serialize | the reads of the serializer against the bytes of the proof, simulation of the verifier by the serializer, a prefix code for the text, a JSON reader run on the text |
| C68 | solidity_verifier.rs generate, OodsPoly.sol, Periodic.sol | semantics of the Yul fragment of the template (memory, 256-bit words, addmod, mulmod, modexp), the generator as a compiler into it; compiler correctness against combine and evaluation, invariants of the batch inversion loops, totality of the generator |
| C69 | logging_allocator.rs alloc, dealloc, fetch_max | transition system of threads with one step per atomic operation, loads return any earlier value; invariants over executions that count what is in flight |
| C70 | merkle.sol verify_merkle_proof (MerkleSolModel.v) against proof.rs verify (MerkleModel.v) | the assembly loop on a ring buffer of words; simulation by induction on the steps: the ring holds the queue of the Rust loop, and the words left over in it are of lower layers or smaller |
| C71 | public_coin.sol, proof_of_work.sol, fri.sol get_queries, utils.sol sort (CoinSolModel.v) against ChannelModel.v, PowModel.v, QueryModel.v | words as Z, packing as big-endian bytes; induction over the acts of a transcript; invariants of the query loops and of the insertion sort |
| C72 | fri.sol fold, fold_coset, fold_layer, first inverses, last layer; primefield.sol horner_eval, root; utils.sol bit_reverse, bit_reverse2, num_bits (FriSolModel.v) against FriModel.v | words as Z, the field of C44 as the meaning of a word; the eight roots are the powers of the library's root; induction over the cosets that the queries meet; the unrolled Horner loop by induction; bytes of bit_reverse2 by cases, joined by the splitting law of bit reversal |
| C73 | primefield.sol without from_bytes_array_raw, from_montgomery_bytes and the trace events; stark_verifier.sol check_out_of_domain_sample_result (PrimeSolModel.v) against FieldModel.v and OodsModel.v | Montgomery constants by computation, the rest from the represented values; Fermat for the inverse; the invariant carried times product of the first elements is 1 for the batch; induction over the sample |
| C74 | stark_verifier.sol verify_proof, write_data_and_read_random, check_commitments, prepare_hashes_and_queries (VerifySolModel.v) against the transcript of C39 and C71 | the constraint system contract, leaf hash, Merkle verifier (with what it leaves in its arrays) and fri_check are parameters; C71 on the acts of the prover up to the proof of work; stores in arrays by induction |
| C75 | fri.sol fold_and_check_fri_layers (FriLoopModel.v) against fri_fold and the check of the last layer (FriModel.v) | the library's run over the layers as an inductive relation; induction on it, with C72_layer, C72_points and C72_last_layer for the steps; the Merkle verifier and the hash of a coset are parameters; FriScaleProps.v carries it over to the limbs (Montgomery form) that a proof has, by linearity of the folds and of the evaluation |
| C76 | merkle.sol merkle_leaf_hash and the hash of a node (LeafSolModel.v) against hashable.rs, masked_keccak.rs (HashModel.v) and node.rs | packed words are the big-endian bytes; the mask, bit by bit, keeps the first 20 bytes; composed with C75; Keccak is a parameter |
| C77 | default_cs.sol default_fri_layout (DefaultSolModel.v) against constraints.rs default_fri_layout (ExprModel.v) | the array writes by induction on the loop; composed with C75 for the empty layout |

## 3. Trusted base

* The kernel of Coq 8.16.1 (including its `vm_compute` and `native`-free
  conversion) and `coqchk`.
* `Print Assumptions` beneath every property theorem prints `Closed under the
  global context`: no axiom is used, neither of the standard library nor of any
  other library. Only the standard library is imported.
* The transcription: each definition in `*Model.v` is a hand-written Gallina
  version of the cited lines of Rust. That the two agree was checked by reading
  only, since the code could not be run here.
* The reading of Rust: `usize` is 64 bits (no cost model);
  a panic aborts the function (`None`); `dbg : bool` selects the debug profile,
  in which arithmetic overflow and `debug_assert!` panic, or the release
  profile, in which they wrap or are skipped. Memory exhaustion and stack depth
  are not modelled.

### What is modelled

| crate | files | in |
|---|---|---|
| algebra/u256 | u256.rs, additive.rs, multiplicative.rs, division.rs, binary.rs, traits/binary.rs, conversion.rs, encoding.rs, functions.rs, arch/generic/{knuth_division,lehmer_gcd}.rs, algorithms/{limb_operations,montgomery/*}.rs, u256_traits.rs, rand.rs, arch/{x86_64,x86_64_adx}/mod.rs | U256Model, BinaryModel, KnuthModel, LehmerModel, EncodingModel, MontgomeryModel, X86Model, CodecModel, RandModel |
| algebra/primefield | prime_field.rs, proth_field.rs, ops.rs, convert.rs, invert_batch.rs, geometric_series.rs, serde.rs, parity_codec.rs, rand.rs, fft/{mod,bit_reverse,recursive,small,transpose,radix_sqrt}.rs | FieldModel, InverseModel, FieldAlgModel, FftModel, CodecModel, RandModel |
| algebra/elliptic-curve | curve.rs, jacobian.rs, wnaf.rs, scalar_field.rs | CurveModel, WnafModel |
| crypto/elliptic-curve-crypto | private_key.rs, public_key.rs, signature.rs | SignModel |
| crypto/hash | hash.rs, hashable.rs, masked_keccak.rs | HashModel |
| crypto/merkle-tree | index.rs, tree.rs, proof.rs, commitment.rs, node.rs, result.rs, vector_commitment.rs | MerkleModel |
| crypto/stark | channel.rs, proof_of_work.rs, polynomial.rs, trace_table.rs, rational_expression.rs, constraints.rs, constraint_check.rs, algebraic_dag.rs, component/*.rs, prover.rs, verifier.rs, traits.rs, solidity_seralizer.rs, solidity_verifier.rs (in part), assets/OodsPoly.sol, assets/Periodic.sol | ChannelModel, PowModel, PolyModel, TraceModel, ExprModel, DagModel, ComponentModel, QueryModel, FriModel, OodsModel, StarkModel, BindModel, SolidityModel, ContractModel |
| crypto/stark/examples | small_fib.rs, large_fib.rs, mimc_cubic.rs, mimc_quadratic.rs, mimc_hash.rs, mimc_tree.rs, vdf.rs, constant.rs, claim_polynomial.rs (constraints and trace; main is not) | ClaimModel, SeedModel |
| crypto/stark/examples/pedersen_merkle | component.rs, inputs.rs, merkle_hash of pedersen_points.rs; the tables of points and of coefficients are arguments with hypotheses (below) | PedersenModel |
| utils/mmap-vec, utils/macros-lib, utils/logging-allocator | mmap_vec.rs, lib.rs, logging_allocator.rs | MmapModel, MacroModel, AllocModel |

### What is not modelled

* The bodies of Keccak-256, Blake2s and SHA3 (external crates): function
  arguments of the theorems, about which only the output size is assumed.
* In the models of the other crates arithmetic is that of `arch/generic`; C59
  relates the assembly of `arch/x86_64` and `arch/x86_64_adx` to it. The
  processor model (X86Model.v) is trusted: the semantics of twelve instructions,
  operands as distinct registers and arrays that do not overlap. What the
  constraints of `asm!` let the compiler do beyond this (a clobbered register
  chosen as an operand) is not modelled. `fft/prefetch.rs` has no effect on
  results.
* Random generators (C61 takes the words they return), the formats behind
  `serde` and the derive macros of `parity_codec` (C60 states what they call),
  `Debug`/`Display` formatting other than U256's, the log messages of `logging-allocator`, `criterion-utils`,
  `error-utils`, benches, tests.
* The 506 points and 4 * 256 coefficients of `pedersen_merkle`: C64 assumes that
  the coefficients evaluate, on row r < 252, to points r + 1 and r + 253 and that the
  points are on the curve. A script outside Rocq has confirmed this for the
  literals in the source; on rows 252 to 255 the columns repeat the last point.
  Five of the points are in PedersenFeltProps.v.
* of `solidity_verifier.rs`: the rendering of the templates as text, the wrapper contract and the trace layout contract
  (Wrapper.sol, Trace.sol), gas; the EVM is modelled only as far as the templates OodsPoly.sol and Periodic.sol use it,
  with memory read and written at multiples of 32; the contracts of `stark-verifier-ethereum` other than `merkle.sol`, `public_coin.sol`,
  `proof_of_work.sol`, `fri.sol`, `sort`, `bit_reverse`, `bit_reverse2`, `num_bits` of
  `utils.sol`, `primefield.sol`, `default_fri_layout` of `default_cs.sol`, and `stark_verifier.sol` (C74 takes the
  Merkle verifier, `fri_check` and the constraint system as parameters; they are not composed)
* The raw system calls behind `MmapVec` (a mapping is a list of cells with a
  capacity); raw pointers in it are positions.
* rayon: a parallel loop over disjoint parts is an arbitrary permutation of its
  iterations (`schedules`, `in_order`); the shared minimum of the proof-of-work
  search is an interleaving semantics (C41). Weak memory is not modelled
  (the code uses SeqCst there).
* `slice::sort_unstable`, `binary_search`, `HashMap`/`BTreeMap`: specified by
  what they guarantee (`sorts`, `searches`), sets by sorted lists.
* Security against a malicious prover beyond binding (C37, C58), transcript
  agreement (C39) and the conditions that acceptance implies (C58: it states
  what has been checked, not how likely a false claim passes): no probability
  theory.

## 4. Findings

Where the code does not do what its name or documentation promises the theorem
states what it does; the names end in `_refuted`, `_deviation` or `_panics`.

Arithmetic (u256, primefield)

1. Knuth division: the correction step is missing a case, `div_rem` returns a
   wrong quotient for some inputs (C03_div_rem_refuted) and hence `mulmod`
   returns a wrong product (C04_mulmod_refuted), even modulo the field's own
   prime, where it panics in the debug profile (C04_mulmod_own_prime_panics).
2. Lehmer's algorithm inherits it: `inv_mod` fails modulo the field's prime and
   `FieldElement::inv` returns a wrong value or panics (C06_own_prime_refuted,
   C19_refuted). `inv_mod(x, 1) = Some(1)`; modulus 0 panics.
3. `Sum` for U256 starts from one (C13).
4. Montgomery multiplication needs a modulus below 2^255 (C15).
5. `from_decimal_str` accepts overflowing text, panics on a non-ASCII digit;
   `from_hex_str` trims repeated `0x` and drops excess digits (C10, C11).
6. `Pow<isize>` of `isize::MIN` and conversion from `iN::MIN` panic in debug
   (C20, C23).
7. `GeometricIter`: skipping past the end, `step_by` rounds down (C25).
8. `ifft_cofactor` applies the inverse cofactor powers in bit-reversed
   positions; FFT of a length that is not a power of two (C27); `transpose` of
   other shapes is unimplemented (C29).

Curve, signatures

9. The affine mixed addition of a point to itself gives zero; `base_mul`
   gives zero for one scalar; `double_base_mul` panics on the zero point;
   `double_mul` uses the wrong sign of a digit (C30, C31, C33).
10. Private keys 0 and one other have public key zero; verification panics on
    some inputs and rejects a valid signature of key 1; signatures are malleable
    (C34).

Merkle tree, hash, channel

11. Verifying an empty list of indices always succeeds; `last_common_ancestor`
    is wrong for equal or nested indices; `children` overflows at depth 63;
    `is_right_most(usize::MAX)` panics (C35-C37).
12. A slice of one element hashes like the element (C51).
13. The coin does not separate what it drew from what was written; the
    proof-of-work seed ignores the draw counter; in release builds the verifier
    accepts field elements that are not canonical; a truncated proof panics
    (C39-C41, C55). `with_difficulty` panics above 255.
14. MmapVec: double drop, leak on resize, capacity overflow in release (C50).

STARK

15. `DensePolynomial` equality compares values at one point (C42_eq_deviation).
16. `iter_column` accepts a column out of range (C46_column_deviation).
17. `security_bits` overestimates by half the number of queries; `max_proof_size`
    panics in debug for small tables (C48).
18. The degree bound is wrong for a polynomial of 1/X (C49_poly_refuted).
19. The constraint checker reads nested inverses as values, looks one row off in
    the single-constraint form, and accepts every constraint without a
    denominator (C53).
20. Query indices are not deduplicated before sorting (C45); FRI layout entries
    0 or above 4 panic the prover (C44); an empty FRI layout panics the verifier.
21. The evaluation graph identifies expressions by their value at one public
    pseudorandom point: a constant equal to it is taken for X
    (C43_collision_deviation); an offset below minus the trace length panics.
22. Vertical composition uses the first claim only and moves cyclic references
    across elements; Horizontal panics for different sizes (C47).
23. Completeness of the protocol (C57) therefore has exceptions: coefficients
    that cause a collision in the evaluation graph, and sample points on the
    trace domain or related to the evaluation domain, where the prover panics.
    They are named in `StarkSpec.good_coefficients` and `good_sample`.
24. After the query phase the coins of prover and verifier can differ (leaves of
    more than one element are recorded differently); nothing is drawn from them
    afterwards, so this has no effect.

Assembly

25. `arch/x86_64_adx` `mul_redc` drops a carry. In its first row `adcxq $3, %r10`
    can carry out; the next `adcx` adds this carry to %r14, the second limb,
    instead of %r12, the fifth. For the base field, x = 2^64 - 1 and
    y = 6 * 2^64 + 5 * 2^128 + 5 * 2^192 the result is wrong
    (C59_mul_redc_refuted); C59_mul_redc_exact says for which arguments. The
    function is private to the crate and not called at this commit.

Codecs and randomness

26. Decoding a field element (SCALE, serde) does not check that the integer is
    below the modulus: a debug build panics, a release build reduces it, so that
    an element has several encodings (C60_noncanonical_deviation).
27. `Uniform::new(x, x)` is accepted and sampling from it never returns
    (C61_empty_refuted, C61_empty_inclusive_refuted); rand's contract is to panic.

Examples

28. `small_fib.rs`, `large_fib.rs`: the trace length is `index.next_power_of_two()`, so for an index that
    is a power of two the claimed row is not in the table and the constraint is on
    row 0: only the value 1 can be proved (C63_fib_power_refuted). The copy of the
    claim in `traits.rs` uses index + 1.
29. `vdf.rs`: trace and constraints compute c0*c2 + c1*c3 instead of c0*c3 + c1*c2
    for the second component. The step is not the cube in the quadratic extension
    and maps all multiples of sqrt(r) to 0 (C63_vdf_cube_refuted).
30. `mimc_hash.rs`: the second component of a step is 3*left^2 + Q*right^3; the
    cube in the extension has 3*left^2*right (C63_hash_cube_deviation).
31. `mimc_tree.rs`: no constraint connects the result of a hash with an input of the next one. For any
    element, a table is accepted and can be proved for the root hash(x, y) with any x, y
    (C63_tree_refuted). C63_tree_check says what the constraints do mean.
32. `pedersen_merkle/component.rs`: the constraints ask for 252 bits of an input and the modulus is below
    2^252, so numbers below 2^252 - p can also be decomposed as number + p. For the leaf 0 and the
    sibling 0 the tree accepts two roots (C64_hash_refuted, C64_tree_refuted): the root is not a function of leaf and path.
    C64_felt_layer: there are no more than these two representations per input.
33. The same file: for a row that adds a point to itself every slope and so every
    result is accepted (C64_degenerate_deviation); the trace function panics there.
34. `component/mod.rs`: `prove` and `verify` pass an empty channel seed, so the claim is not hashed into
    the transcript (weak Fiat-Shamir). A proof of the Pedersen Merkle tree example, whose `main.rs` calls these
    functions, is accepted for every leaf with a root that is computed from the proof by one division, or for every
    root (C65_pedersen_claims, C65_pedersen_refuted). C65_same_proof is the general statement; it also applies to the
    `Constraints` API if a caller leaves the claim out of the seed.
35. `mimc_tree.rs`: `start_left` is part of the claim and of the constraints but not of the channel seed
    (C66_seed_deviation). C66_tree_start: an accepted proof fits one `start_left` or all of them.
36. `claim_polynomial.rs`: `Verifiable::verify` and `Provable::prove` of its `Claim` cannot succeed, as the
    constraints are those before `substitute_claim` (C66_abstract_refuted); `main` uses `concrete_system`.
37. `solidity_seralizer.rs`: an empty `Vec` is written as nothing, so the text of an accepted proof can be invalid
    JSON (C67_empty_refuted: one FRI layer has all its leaves queried); bytes after the proof are ignored
    (C67_trailing_deviation).
38. `solidity_verifier.rs`: a division inside a divisor makes the generator panic (C68_nested_panics), or, if the inner
    division also stands elsewhere, gives a contract that reads it before it is computed (C68_nested_refuted).
39. `solidity_verifier.rs`: expressions are looked up by a hash in which a polynomial counts only by its value at one
    fixed point, so two polynomials that agree there are taken for each other (C68_hash_collision, C68_hash_refuted).
40. `OodsPoly.sol`: the batch inversion does not check for zero; where a divisor is zero the contract returns a number
    (C68_zero_divisor_deviation).
41. `logging_allocator.rs`: `peak_allocated` takes the value of `allocated` before the addition, so it misses the last
    allocation (C69_peak_refuted; C69_peak gives the bound that holds).
42. `merkle.sol`: with one claimed leaf the ring buffer has one slot, an odd node finds itself in the slot behind it and is
    hashed with the left word of the scratch space and itself: valid single openings are rejected (C70_single_refuted).
43. `public_coin.sol`: `read_many_bytes32` has no return statement and returns an empty array (C71_read_many_refuted). `fri.sol`:
    `get_queries` draws once too often when the number of queries is a multiple of four (C71_queries_counter_deviation).
44. `fri.sol`: queries can repeat (`get_queries` does not remove duplicates, as the library does before folding), and a
    repeated query makes `fold_layer` fold its coset twice and revert (C72_duplicate_refuted). A layout entry of 0 sets all
    inverses to 0 (C72_layout_refuted). Values and coefficients of the proof are not checked to be reduced, and for large words
    `fold` and `horner_eval` overflow (C72_unreduced_refuted).
45. `primefield.sol`: `batch_invert` is documented to fail on a zero, but returns zeros for the whole batch
    (C73_batch_zero_refuted). For empty arrays it writes 1 to the word behind the output (C73_batch_empty_refuted). `fsub` is
    wrong for a subtrahend above the modulus (C73_fsub_refuted).
46. `stark_verifier.sol`: `verify_proof` is declared to return a bool but has no return statement, so it answers false for
    proofs that it accepts (C74_answer_refuted). `check_commitments` does not compare the number of values with the number of
    queries, and uses one array of hashes for both commitments: groups that are missing keep the old hashes
    (C74_leftover_refuted), and with no constraint values at all the constraint commitment is checked against what the
    Merkle verifier left of the trace's hashes (C74_no_values_refuted).
47. `default_cs.sol`: the default FRI layout of a trace of one row is empty; `fold_and_check_fri_layers` reverts on it
    (C77_one_row_refuted).
