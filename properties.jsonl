{"id": "C01", "title": "Compact constants give the same permutation", "statement": "For every 3-word state, permuting it with the compact round constants (P128Pow5T3Compact::constants) gives the same state as permuting it with the plain constants (P128Pow5T3::constants).", "quantifier": "every field, every state, every table of plain round constants and matrix, every number of partial rounds", "why_tests_cant": "test_compact_constants checks the single state (0,1,2); the claim is about all p^3 states.", "anchors": ["poseidon-base/src/primitives/p128pow5t3_compact.rs: constants, mat_mul, vec_accumulate, vec_remove_tail", "poseidon-base/src/primitives.rs: permute"]}
{"id": "C02", "title": "Fixed-length hash is the textbook sponge", "statement": "Hash::<_, _, ConstantLength<L>, T, RATE>::init().hash(m) returns word 0 of the sponge that starts from all zeros with L*2^64 in word RATE, adds each RATE-word block of m (zero padded to a multiple of RATE) into words 0..RATE and permutes after each block.", "quantifier": "every width T, rate 0<RATE<T, length L>0, message of L words, permutation constants", "why_tests_cant": "tests hash two and three word messages only, with one width.", "anchors": ["poseidon-base/src/primitives.rs: Sponge::new, absorb, finish_absorbing, squeeze, poseidon_sponge, ConstantLength, Hash::hash"]}
{"id": "C03", "title": "iden3 fixed-length hash with a domain is the textbook sponge", "statement": "Hash::<_, _, ConstantLengthIden3<L>, T, RATE>::init().hash(m, d) returns word 0 of the sponge that starts from all zeros with d in word 0, adds each zero padded RATE-word block into the last RATE words and permutes after each block.", "quantifier": "every width, rate, L>0, message, domain value", "why_tests_cant": "tests fix L=2 and two domain values.", "anchors": ["poseidon-base/src/primitives.rs: ConstantLengthIden3, Hash<ConstantLengthIden3>::hash, Sponge::update_capacity"]}
{"id": "C04", "title": "Variable-length message hash is the textbook sponge", "statement": "MessageHashable::hash_msg(msg, cap) for a non-empty msg returns word 0 of the width-3 sponge that starts from (cap,0,0), adds successive pairs of msg (zero padded to even length) into words 1 and 2 and permutes after each pair; without cap the capacity is len(msg)*HASHABLE_DOMAIN_SPEC.", "quantifier": "every message length and content, every cap", "why_tests_cant": "two literal messages are tested; length and content are unbounded.", "anchors": ["poseidon-base/src/primitives.rs: VariableLengthIden3, hash_with_cap", "poseidon-base/src/hash.rs: MessageHashable for Fr, hash_msg"]}
{"id": "C05", "title": "Hashing never panics except on an empty message", "statement": "hash_msg and the fixed-length hash calls return a value for every non-empty message and panic for the empty message (hash_msg(&[], _), ConstantLength<0>, ConstantLengthIden3<0>): the block loop never leaves a partially filled block otherwise.", "quantifier": "every message length, width, rate", "why_tests_cant": "absence of a panic must hold for each of the unboundedly many lengths; the empty message is not in the tests.", "anchors": ["poseidon-base/src/primitives.rs: poseidon_sponge (expect), finish_absorbing, Domain::padding"]}
{"id": "C06", "title": "Two-word hash APIs agree", "statement": "hash_with_domain([a,b],d) is word 0 of the permutation of (d,a,b); the deprecated hash([a,b]) is the case d=0; hash_msg(&[a,b],Some(c)) equals hash_with_domain([a,b],from_u128(c)); Hasher::permute used by the circuit computes the same value.", "quantifier": "every a, b, d and every u128 cap", "why_tests_cant": "tests fix (1,2) with domains 0 and 256.", "anchors": ["poseidon-base/src/hash.rs: Hashable::hash, hash_with_domain, MessageHashable::hash_msg", "poseidon-base/src/primitives.rs: Hash::permute"]}
{"id": "C07", "title": "What a message hash commits to", "statement": "With the default capacity, two different messages never feed the sponge the same capacity and block sequence. With an explicit equal capacity an odd-length message m and m followed by one zero word have the same hash, and this is the only way two messages can feed the sponge identically.", "quantifier": "every pair of messages shorter than 2^64 words, every cap", "why_tests_cant": "injectivity is a statement over all pairs of messages.", "anchors": ["poseidon-base/src/primitives.rs: VariableLengthIden3::padding", "poseidon-base/src/hash.rs: hash_msg"]}
{"id": "C08", "title": "The permutation is a bijection", "statement": "The permutation used by Fr's hashers maps distinct states to distinct states and reaches every state; so does the one with the Pallas tables, and the permutation of every Spec of every width with an invertible matrix over a field whose order minus one is coprime to 5.", "quantifier": "all p^3 states of the two fields; every such field, width, round numbers and constants", "why_tests_cant": "bijectivity over a 254-bit field cannot be sampled.", "anchors": ["poseidon-base/src/primitives.rs: permute", "poseidon-base/src/primitives/bn256/mod.rs", "poseidon-base/src/primitives/bn256/fp.rs", "poseidon-base/src/primitives/pasta/mod.rs"]}
{"id": "C09", "title": "Hash results do not depend on call history", "statement": "Fr::hasher and Fr::msg_hasher hand out a fresh copy of a once-initialised hasher: in any sequence of hash_with_domain / hash_msg / permute calls each call returns what it would return as the first call.", "quantifier": "every finite history of API calls, in any order, including those that panic", "why_tests_cant": "a leak of sponge state between calls may need a particular history to show.", "anchors": ["poseidon-base/src/hash.rs: Hashable::hasher, MessageHashable::msg_hasher (OnceCell)"]}
{"id": "C10", "title": "Hash values do not depend on the short feature", "statement": "hash_with_domain and hash_msg return the same values whether Fr's spec type is P128Pow5T3 (x.pow_vartime([5]) S-box) or P128Pow5T3Compact (multiplications), with the cached compact constants in both cases, and also the same as with plain constants.", "quantifier": "every input of the two APIs", "why_tests_cant": "no test compares two builds; the claim is for all inputs.", "anchors": ["poseidon-base/src/hash.rs: chip_long, chip_short, HashSpec", "poseidon-base/src/params.rs: CachedSpec for HashSpec", "poseidon-base/src/primitives/p128pow5t3.rs: sbox"]}
{"id": "C11", "title": "Sponge absorb/squeeze sequences", "statement": "After any sequence of absorbs whose length is a positive multiple of RATE followed by finish_absorbing, the n-th squeeze returns word n mod RATE of the state permuted n/RATE more times; absorbs never lose, duplicate or reorder words.", "quantifier": "every sequence of absorbed words, every number of squeezes, every width and rate", "why_tests_cant": "tests squeeze once.", "anchors": ["poseidon-base/src/primitives.rs: Sponge::absorb, squeeze"]}
{"id": "C12", "title": "Grain generator follows its bit recurrence", "statement": "The constants generator's bit source, which produces bits eight at a time in a rotating buffer, yields exactly the 80-bit LFSR sequence b(i+80)=b(i+62)+b(i+51)+b(i+38)+b(i+23)+b(i+13)+b(i) seeded with bits 0..79, in order, starting at b(240) (the 80 seed bits and the first 160 produced bits are skipped), and its iterator outputs exactly the self-shrunk sequence.", "quantifier": "every parameter set (field size, width, numbers of rounds), hence every seed the code can start from; every number of bits drawn", "why_tests_cant": "the buffer bookkeeping must be right at every position of an unbounded stream.", "anchors": ["poseidon-base/src/primitives/grain.rs: load_next_8_bits, get_next_bit, Iterator::next, new"]}
{"id": "C13", "title": "Hard-coded constants are the generated ones", "statement": "The hard-coded BN254 round constants, MDS matrix and inverse equal what the Grain-based generator (Spec::constants default, 8 full and 57 partial rounds, width 3) produces for the BN254 scalar field; the same for the Pallas tables with 56 partial rounds.", "quantifier": "all 195 (192) round constants and both matrices", "why_tests_cant": "a finite claim, tested upstream only by running the same Rust code; here it ties the model's constants to the model's generator.", "anchors": ["poseidon-base/src/primitives.rs: Spec::constants", "poseidon-base/src/primitives/bn256/fp.rs", "poseidon-base/src/primitives/pasta/fp.rs", "poseidon-base/src/primitives/mds.rs"]}
{"id": "C14", "title": "Generated MDS inverse is the inverse", "statement": "Whenever generate_mds returns (m, m_inv), m is the Cauchy matrix 1/(x_i+y_j) of pairwise distinct x,y and m * m_inv = m_inv * m = identity.", "quantifier": "every field, every width T, every generator state and select counter", "why_tests_cant": "poseidon_mds tests one width, one field, one seed.", "anchors": ["poseidon-base/src/primitives/mds.rs: generate_mds"]}
{"id": "C15", "title": "BN254 matrix inverse formula", "statement": "The lazily computed MDS_INV is the two-sided inverse of MDS; the cofactor formula gives the inverse of every 3x3 matrix with non-zero determinant and panics otherwise; the BN254 MDS is maximum distance separable (every square submatrix is invertible). The hard-coded Pallas matrices are inverse to each other and separable as well.", "quantifier": "every 3x3 matrix over every field", "why_tests_cant": "verify_mds checks one product for one matrix.", "anchors": ["poseidon-base/src/primitives/bn256/fp.rs: MDS, MDS_INV", "poseidon-base/src/primitives/pasta/fp.rs: MDS, MDS_INV"]}
{"id": "C16", "title": "Septidon chip soundness", "statement": "In any assignment that satisfies the Septidon chip's gates, the three final-state cells of every permutation block hold the Poseidon permutation of the three initial-state cells.", "quantifier": "every assignment of all advice cells (malicious prover), every block, every placement", "why_tests_cant": "MockProver checks honest witnesses; soundness is about all dishonest ones.", "anchors": ["poseidon-circuit/src/poseidon/septidon/septidon_chip.rs: configure, assign_permutation_with_offset", "poseidon-circuit/src/poseidon/septidon/{control,loop_chip,full_round,septuple_round,transition_round,state,util}.rs"]}
{"id": "C17", "title": "Septidon chip completeness", "statement": "For every initial state the witness assigned by the chip satisfies all of its gates on all rows, and the returned final values are the Poseidon permutation of the initial values.", "quantifier": "every initial state, every number of blocks, every domain size that fits", "why_tests_cant": "one state (0,1,2) is tested, and the test verifies only row 0.", "anchors": ["poseidon-circuit/src/poseidon/septidon/septidon_chip.rs: assign_permutation_with_offset", "poseidon-circuit/src/poseidon/septidon/instruction.rs: permute"]}
{"id": "C18", "title": "Septidon witness is unique", "statement": "Two satisfying assignments with the same initial-state cells of a block agree on every advice cell of that block except two that no gate reads (rows 0 and 4 of the column whose rows 5 to 7 hold the final state), which may hold anything: the prover has no freedom that matters inside a block.", "quantifier": "every pair of satisfying assignments", "why_tests_cant": "requires quantifying over all witnesses.", "anchors": ["poseidon-circuit/src/poseidon/septidon/*.rs"]}
{"id": "C19", "title": "Septidon blocks do not interfere", "statement": "With any number of 8-row blocks placed without overlap anywhere in a circuit of n rows (rotations wrapping modulo n), every gate is active exactly on the rows of its block and no constraint ties one block to another or to rows outside blocks.", "quantifier": "every set of non-overlapping block positions, every n", "why_tests_cant": "tests place blocks back to back from row 0 only.", "anchors": ["poseidon-circuit/src/poseidon/septidon/control.rs: configure, derive_selector"]}
{"id": "C20", "title": "Batch permutation equals sequential permutation", "statement": "permute_batch on any list of states, with any number of worker threads, assigns the same cells at the same rows, makes the same copy constraints and returns the same words in the same order as calling permute on each state in turn; an empty list gives an empty list.", "quantifier": "every list length, every thread count >= 1 (and the fallback 32)", "why_tests_cant": "chunk boundaries depend on list length and machine; tests run 4 states on one machine.", "anchors": ["poseidon-circuit/src/poseidon/septidon/instruction.rs: permute, permute_batch", "poseidon-circuit/src/poseidon.rs: permute_batch"]}
{"id": "C21", "title": "Pow5 chip soundness", "statement": "In any assignment that satisfies the Pow5 chip's gates, the state after the permutation region's last row is the Poseidon permutation (with the spec's constants) of the state in its first row, for even and odd numbers of partial rounds.", "quantifier": "every width, even number of full rounds, number of partial rounds, constants with mutually inverse matrices, every assignment", "why_tests_cant": "MockProver tests honest witnesses with width 3.", "anchors": ["poseidon-circuit/src/poseidon/pow5.rs: configure, permute, Pow5State"]}
{"id": "C22", "title": "Pow5 chip completeness", "statement": "For every initial state the witness assigned by Pow5Chip::permute satisfies all its gates and the returned words hold the Poseidon permutation of the initial words. The chip can be configured (no panic) exactly when the rate is the width minus one and at least one, and the number of full rounds is even.", "quantifier": "every initial state, width, round numbers", "why_tests_cant": "tests use random or fixed single states.", "anchors": ["poseidon-circuit/src/poseidon/pow5.rs: permute, full_round, partial_round, partial_round_single"]}
{"id": "C23", "title": "In-circuit fixed-length hash soundness", "statement": "In any assignment satisfying the gates and copy constraints laid down by the circuit Hash::init / hash over Pow5Chip, the output cell equals the primitive ConstantLength<L> hash of the values of the message cells.", "quantifier": "every L>0, width, rate = width-1, every assignment", "why_tests_cant": "soundness ranges over dishonest witnesses.", "anchors": ["poseidon-circuit/src/poseidon.rs: Sponge, Hash, poseidon_sponge", "poseidon-circuit/src/poseidon/pow5.rs: initial_state, add_input, get_output"]}
{"id": "C24", "title": "In-circuit fixed-length hash completeness", "statement": "The witness assigned by the circuit Hash over Pow5Chip satisfies all gates and copy constraints it lays down, and the returned cell's value is the primitive hash; the call panics only for L=0.", "quantifier": "every L, message values, width", "why_tests_cant": "tests cover L=2 and L=3.", "anchors": ["poseidon-circuit/src/poseidon.rs: Hash::hash", "poseidon-circuit/src/poseidon/pow5.rs: add_input"]}
{"id": "C25", "title": "The two permutation chips are interchangeable", "statement": "For BN254, from any satisfying assignments, a Septidon block and a Pow5 block with the same initial words have the same final words.", "quantifier": "every pair of satisfying assignments", "why_tests_cant": "over all witnesses and inputs.", "anchors": ["poseidon-circuit/src/hash.rs: chip_long, chip_short", "poseidon-circuit/src/poseidon/pow5.rs", "poseidon-circuit/src/poseidon/septidon.rs"]}
{"id": "C26", "title": "Hash table soundness: two-word rows", "statement": "In any assignment satisfying the hash circuit, every enabled row of the exposed table other than the last one that starts and ends a message carries digest = word 0 of permute(control+domain, in1, in2); with control 0 this is hash_with_domain([in1,in2],domain).", "quantifier": "every table size, every assignment (malicious prover), both permutation chips", "why_tests_cant": "soundness over all witnesses.", "anchors": ["poseidon-circuit/src/hash.rs: configure_sub, load"]}
{"id": "C27", "title": "Hash table soundness: variable-length messages", "statement": "In any assignment satisfying the hash circuit, for every maximal run of rows head=1, head=0, ..., head=0 that is followed by another enabled head row, all rows of the run carry the same digest, which is the sponge hash of the run's words with initial capacity control+domain of its head row (adding each later row's domain column to the capacity word), i.e. hash_msg(words, cap) when those domains are 0.", "quantifier": "every table size, run length, assignment", "why_tests_cant": "soundness over all witnesses and unbounded run lengths.", "anchors": ["poseidon-circuit/src/hash.rs: configure_sub gates control constrain, control step, hash index constrain, input constrain, load"]}
{"id": "C28", "title": "Control column decodes to a unique message length", "statement": "In any satisfying assignment the control column of a message of k rows is (R, R-STEP, ..., R-(k-1)STEP)*DOMAIN_SPEC for one integer R with R-(k-1)STEP in [0,STEP], and >0 when k>1: the head row's control fixes the number of rows, and message boundaries cannot be moved. This needs STEP (the range table) to be at most the step given to the configuration; with a larger STEP it fails, and the code does not check it.", "quantifier": "every assignment, every STEP and table with (rows+1)*(STEP+1)*DOMAIN_SPEC below the modulus", "why_tests_cant": "wrap-around attacks modulo p need a proof, not samples.", "anchors": ["poseidon-circuit/src/hash.rs: control step gate, control range check lookup"]}
{"id": "C29", "title": "The first table row cannot continue the custom row", "statement": "In any satisfying assignment the first enabled row is a head row, although the gates alone would let it continue from the unchecked row above.", "quantifier": "every assignment and table size within the field-size bound", "why_tests_cant": "a malicious continuation is never in an honest test.", "anchors": ["poseidon-circuit/src/hash.rs: configure_sub, fill_hash_tbl_custom"]}
{"id": "C30", "title": "Every enabled row carries a genuine digest (fails for the last row)", "statement": "Every enabled row of the table carries the genuine digest of its message. The circuit guarantees this for all enabled rows but the last; for the last row (forced to be inputs 0,0 with control 0) any digest is accepted: changing only the digest of the last row of any satisfying assignment leaves it satisfying.", "quantifier": "every satisfying assignment and every forged digest value", "why_tests_cant": "a forged witness is not an honest run.", "anchors": ["poseidon-circuit/src/hash.rs: hash index constrain gate, fill_hash_tbl_body (s_custom on last row)"]}
{"id": "C31", "title": "What the custom first row guarantees", "statement": "In any satisfying assignment the first table row (not enabled) has zero inputs and zero control; its digest, domain and head columns are not tied to any hash.", "quantifier": "every satisfying assignment", "why_tests_cant": "over all witnesses.", "anchors": ["poseidon-circuit/src/hash.rs: custom row gate, fill_hash_tbl_custom"]}
{"id": "C32", "title": "Hash table completeness, exactly", "statement": "The witness that load assigns satisfies every gate, lookup and copy constraint if and only if the table is well formed: within each message controls decrease by exactly STEP, later rows of a message have domain 0, and the last of the calcs rows is (0,0) with control 0.", "quantifier": "every table content, STEP, number of calcs, both chips", "why_tests_cant": "tests run a handful of tables.", "anchors": ["poseidon-circuit/src/hash.rs: fill_hash_tbl_body, load"]}
{"id": "C33", "title": "Table capacity is enforced", "statement": "load refuses a table with more rows than calcs. Serial assignment panics on such a table, parallel assignment silently drops the excess rows (the property fails in parallel mode).", "quantifier": "every table, every calcs, both modes", "why_tests_cant": "tests never overfill the table.", "anchors": ["poseidon-circuit/src/hash.rs: fill_hash_tbl_body (assert), load (parallel branch)"]}
{"id": "C34", "title": "Parallel assignment equals serial assignment", "statement": "For every table that fits, load in parallel mode with any number of worker threads places the same values in the same cells, the same selectors, fixed cells and copy constraints at the same absolute rows as serial mode, and panics on the same check mismatches.", "quantifier": "every table (well formed or not), every thread count", "why_tests_cant": "chunking depends on the machine's thread count and the data.", "anchors": ["poseidon-circuit/src/hash.rs: fill_hash_tbl_body, fill_hash_tbl_body_partial, load"]}
{"id": "C35", "title": "The verification key does not depend on the data", "statement": "Fixed cells, selectors and copy constraints laid down by load depend only on STEP and calcs, not on the table contents, and those of the permutation chips do not depend on whether values are known.", "quantifier": "every pair of tables that fit the same calcs", "why_tests_cant": "vk_validity compares two tables.", "anchors": ["poseidon-circuit/src/hash.rs: load", "poseidon-circuit/src/poseidon/septidon/septidon_chip.rs", "poseidon-circuit/src/poseidon/pow5.rs"]}
{"id": "C36", "title": "Table builder refines a list of rows", "statement": "Any sequence of constant_inputs, constant_inputs_with_check, fixed_inputs, stream_inputs, stream_inputs_with_check calls that does not panic leaves a table whose i-th row (input, control, domain, check, with missing entries read as 0/none) is the i-th row added; table_size is the number of rows added.", "quantifier": "every sequence of builder calls with every argument", "why_tests_cant": "misalignment of the four parallel vectors needs particular call orders.", "anchors": ["poseidon-circuit/src/hash.rs: PoseidonHashTable"]}
{"id": "C37", "title": "stream_inputs acceptance and control series", "statement": "stream_inputs on k rows with start c and step s succeeds on an aligned table exactly when k>0 and c > (k-1)*s (or k=1), and gives controls c, c-s, ...; the message is terminated (last control <= s) only when additionally c <= k*s, which is not checked. A sequence of builder calls on a new table panics exactly when one of its stream calls is so rejected, or follows a constant_inputs of at least one row without a fixed_inputs between them.", "quantifier": "every k, u64 start, step; every sequence of builder calls", "why_tests_cant": "boundary arithmetic over all k, c, s.", "anchors": ["poseidon-circuit/src/hash.rs: stream_inputs_with_check"]}
{"id": "C38", "title": "Loaded tables contain the hashes of the API", "statement": "For every table built with fixed_inputs and correctly sized stream_inputs calls and loaded with calcs larger than its size, the digest column holds hash_with_domain(inp, domain) for each fixed input and, on every row of a stream, hash_msg(words, Some(ctrl_start*DOMAIN_SPEC)).", "quantifier": "every sequence of such calls", "why_tests_cant": "unbounded tables.", "anchors": ["poseidon-circuit/src/hash.rs: PoseidonHashTable, load", "poseidon-base/src/hash.rs"]}
{"id": "C39", "title": "Expected-hash checks are enforced", "statement": "load panics if and only if some provided check differs from word 0 of the state computed at its row; a load that does not panic has every final-row check equal to the digest in the table.", "quantifier": "every table and set of checks", "why_tests_cant": "over all tables.", "anchors": ["poseidon-circuit/src/hash.rs: fill_hash_tbl_body, fill_hash_tbl_body_partial"]}
{"id": "C40", "title": "Row budget", "statement": "calcs permutations take exactly 8*calcs rows with the Septidon chip and 38*calcs rows with the Pow5 chip (BN254); the layout fits in u usable rows if and only if the host fits, calcs < u, these rows are at most u and the range table is shorter than u; the exposed table takes calcs+1 rows; and the rows taken are never more than calcs*hash_block_size(), so that minimum_row_require() is enough for the permutations of the rows of the table, in every combination of the features \"short\" of poseidon-circuit and poseidon-base.", "quantifier": "every calcs, both features of both crates", "why_tests_cant": "over all sizes.", "anchors": ["poseidon-base/src/hash.rs: hash_block_size", "poseidon-circuit/src/hash.rs: minimum_row_require, load", "poseidon-circuit/src/poseidon/septidon/septidon_chip.rs: height_per_permutation", "poseidon-circuit/Cargo.toml and poseidon-base/Cargo.toml: feature short"]}
{"id": "C41", "title": "The constants generator never hangs on a bit", "statement": "Drawing any number of bits from the Grain iterator of any parameter set terminates: the iterator skips at most 79 pairs before each output bit, so its unbounded while loop always ends.", "quantifier": "every field size, width, round numbers, number of bits drawn", "why_tests_cant": "A test runs the generator for two parameter sets; an LFSR stuck in a zero or pair-degenerate state would hang only for others.", "anchors": ["poseidon-base/src/primitives/grain.rs: Grain::new, Iterator::next"]}
{"id": "C42", "title": "In-circuit sponge sessions equal the primitive sponge", "statement": "Absorbing any words (message cells or constants), finishing, and squeezing any number of words with the circuit Sponge over Pow5Chip yields, in every satisfying assignment, exactly the words the primitive sponge with layout 0 yields on the values of those cells; with an honest prover the circuit session succeeds exactly when the primitive one does, and panics exactly when the number of absorbed words is zero or not a multiple of the rate.", "quantifier": "every width, capacity element, sequence of absorbed words, number of squeezed words, assignment, and circuit around the calls", "why_tests_cant": "tests absorb one block and squeeze once through Hash; multi-block, multi-squeeze sessions with dishonest witnesses are not run.", "anchors": ["poseidon-circuit/src/poseidon.rs: Sponge, poseidon_sponge", "poseidon-circuit/src/poseidon/pow5.rs: initial_state, add_input, get_output", "poseidon-base/src/primitives.rs: Sponge"]}
{"id": "C43", "title": "In-circuit sponge respects the Domain (fails for the iden3 domains)", "statement": "The circuit Sponge over Pow5Chip with a Domain computes what the primitive Sponge with the same Domain computes. This fails: the chip puts the capacity word last and adds the message from word 0 whatever Domain::layout says, so with ConstantLengthIden3 a satisfying circuit outputs a different word from the primitive sponge (C42 shows agreement when layout is 0).", "quantifier": "every Domain; refuted by one domain and message", "why_tests_cant": "the crate has no test of the circuit sponge with an iden3 domain.", "anchors": ["poseidon-circuit/src/poseidon/pow5.rs: initial_state, add_input", "poseidon-base/src/primitives.rs: Domain::layout, ConstantLengthIden3"]}
{"id": "C44", "title": "The rows of the exposed table stay reserved (fails in parallel mode)", "statement": "After load, regions that the host circuit assigns later never write to the rows of the exposed table, whatever columns they use. This holds for serial assignment. It fails for parallel assignment: there the layouter records only row 0 of the exposed columns as used, so a later host region that uses the digest column alone is placed at row 1 and overwrites the digest of the first hash.", "quantifier": "for all constants of both builds, hosts, earlier layouts, tables, calcs, and sequences of later regions (serial); witness for every number of threads (parallel)", "why_tests_cant": "The tests assign nothing after load, so no test places a region in the exposed columns; reservation must hold for every later region of every host circuit.", "anchors": ["poseidon-circuit/src/hash.rs: fill_hash_tbl_body, fill_hash_tbl_body_partial, load"]}
{"id": "C45", "title": "Looking up two words in the table proves their hash (fails for the words 0, 0)", "statement": "The fixed enable column is 1 exactly on rows 1..calcs. If a host looks up, among the enabled rows of the exposed table, a row with digest d, words a and b, control 0, domain D and head mark 1, and (a, b) is not (0, 0), then d is what hash_with_domain([a, b], D) returns. For the words (0, 0) this fails: a prover can put any digest beside them on the last enabled row, with any domain.", "quantifier": "every host circuit, build, mode, table size, witness, looked-up tuple; the failure for every digest and domain", "why_tests_cant": "Tests run one honest witness; the claim is about every witness a dishonest prover could choose, and the counterexample is a dishonest one.", "anchors": ["poseidon-circuit/src/hash.rs: hash_tbl, q_enable, configure_sub, fill_hash_tbl_custom"]}
{"id": "C46", "title": "Looking up a message row by row proves its hash", "statement": "A host that looks up each pair of words of a message of given length, with the control value decreasing by the step, domain 0, the same digest in every row, and the head mark on the first, learns that the digest is hash_msg of the whole message with that length, although the lookups need not hit consecutive rows. This assumes that the table contains no two different messages with the same digest.", "quantifier": "every host circuit, table, witness without a sponge collision, message, length that fits the rows, choice of the rows hit", "why_tests_cant": "Tests never look anything up; mixing rows of different messages is a dishonest choice that no honest witness shows.", "anchors": ["poseidon-circuit/src/hash.rs: configure_sub control gates, hash_tbl", "poseidon-base/src/hash.rs: hash_msg"]}
{"id": "C47", "title": "The inputs of the table determine its outputs", "statement": "Two accepted witnesses of the same circuit size with the same words, controls and domains on the enabled rows have the same head marks on all enabled rows and the same digests on all enabled rows but the last.", "quantifier": "every pair of witnesses, host circuits, builds, table sizes, with STEP at most the step", "why_tests_cant": "Under-constrained outputs show only on witnesses that differ from the honest one.", "anchors": ["poseidon-circuit/src/hash.rs: configure_sub, fill_hash_tbl_custom"]}
{"id": "C48", "title": "Which field elements the constants generator draws", "statement": "For any field, width, round numbers and matrix choice k: the generated round constants are, in order, exactly the NUM_BITS-bit big-endian chunks of the self-shrunk Grain sequence that are below the modulus, with the others skipped and none lost; the matrix is the Cauchy matrix of the k-th of the following groups of 2T chunks (each reduced modulo the field order) that has no repeated element. NUM_BITS is the bit length of the modulus, and the seed of the sequence is the 80-bit string of the Poseidon paper. The result does not depend on how long the sampling loops are allowed to run.", "quantifier": "every field, width, numbers of rounds, matrix choice for which the generator returns", "why_tests_cant": "Tests compare two parameter sets with stored tables; rejection, repeated elements and k > 0 occur on other parameters only.", "anchors": ["poseidon-base/src/primitives/grain.rs: next_field_element, next_field_element_without_rejection", "poseidon-base/src/primitives/mds.rs: generate_mds", "poseidon-base/src/primitives.rs: Spec::constants"]}
{"id": "C49", "title": "Calls of the Pow5 chip leave no freedom to the prover", "statement": "If two assignments satisfy the same circuit and agree on the words handed to a permute call, a sponge session or an in-circuit hash of the Pow5 chip, they agree on every advice cell the call assigns (states, S-box helper cells, padding, capacity), so intermediate values cannot be chosen by a prover.", "quantifier": "every width above 1, every Spec with inverse matrices, every host circuit with any regions before, between and after, every pair of satisfying assignments", "why_tests_cant": "MockProver checks one assignment; under-constrained cells show only when all assignments are considered.", "anchors": ["poseidon-circuit/src/poseidon/pow5.rs", "poseidon-circuit/src/poseidon.rs"]}
{"id": "C50", "title": "Configuration cost", "statement": "Configuring the Pow5 chip, the Septidon chip or the hash table circuit adds gates of degree at most 6, one of them exactly 6, raises the degree required by the constraint system to max(host, 6), reads only rows -1..1 (Pow5) or -3..7 (Septidon) around the current one, and adds a fixed number of columns, selectors and lookups.", "quantifier": "every width and Spec, every host constraint system, both builds", "why_tests_cant": "tests configure one circuit; a host relies on the bound whatever it adds itself.", "anchors": ["poseidon-circuit/src/poseidon/pow5.rs: configure", "poseidon-circuit/src/poseidon/septidon/septidon_chip.rs: configure", "poseidon-circuit/src/poseidon/septidon/params.rs", "poseidon-circuit/src/hash.rs: configure_sub"]}
{"id": "C51", "title": "A hash collision is a permutation collision", "statement": "If two different inputs have the same hash, then among the states that the two computations hand to the permutation there are two different ones whose images agree on the digest word (last call) or on the capacity words, or - only for messages of different length or with different explicit capacities - one whose image has the capacity of the other's initial state. The sponge construction, the padding and the domains add no other collisions. For hash_msg with explicit capacities the inputs compared are capacity and zero-padded message.", "quantifier": "hash_msg with and without explicit capacity (both builds, both domain conventions), ConstantLength and ConstantLengthIden3 hashes of every width, rate, length and Spec; all pairs of inputs", "why_tests_cant": "Collision resistance relative to the permutation is a statement about all pairs of messages; tests compare single digests.", "anchors": ["poseidon-base/src/hash.rs: hash_msg", "poseidon-base/src/primitives.rs: Hash, ConstantLength, ConstantLengthIden3"]}
{"id": "C52", "title": "Rows looked up with domain 0 carry the hash, whatever else the prover puts in the table", "statement": "A host that looks up, by digest d, one row for each pair of words of a message (controls len, len - step, ..., domain 0, head set on the first) should be able to conclude that d is the hash of the message unless the Poseidon permutation is broken. This is false: the domain column is unconstrained on continuing rows and is added to the state, so a prover can give any words any digest. It holds if the host also constrains the domain to zero on every row whose head is 0.", "quantifier": "every accepted assignment, every message and choice of looked up rows", "why_tests_cant": "A forged table passes every check of the circuit; tests only fill the table honestly.", "anchors": ["poseidon-circuit/src/hash.rs:95-226 (input gate; TODO on the domain)", "poseidon-circuit/src/hash.rs: PoseidonHashTable"]}
{"id": "C53", "title": "What in-circuit hashing costs, and that its equality constraints are usable", "statement": "A Pow5 permutation takes 1 + R_F + ceil(R_P/2) rows of the chip's columns (38 for BN254), adding a block of input 3 more, a sponge session that absorbs n words and squeezes k takes 1 + (n/RATE)(3 + permutation) + ((k-1)/RATE) permutation rows, and Hash::init 1 row, plus WIDTH cells of the constants column; no other column is touched. So a circuit with that many free rows has room: nothing is laid out outside. Every equality constraint recorded by these calls, and by the calls of either permutation chip, is between columns for which equality was enabled, provided the caller's words are in such columns, and the returned words are too, so that calls can be chained; no call runs into 'column not in permutation'.", "quantifier": "every Spec, width, column assignment, layout before the call, message, number of squeezed words; both chips of the hash circuit and every number of calls", "why_tests_cant": "Tests size k by hand and use one layout; a missing enable_equality or an extra row shows up only in the layouts that reach it.", "anchors": ["poseidon-circuit/src/poseidon/pow5.rs:74-200 (configure)", "poseidon-circuit/src/poseidon/pow5.rs: permute, initial_state, add_input", "poseidon-circuit/src/poseidon.rs: Sponge, Hash", "poseidon-circuit/src/poseidon/septidon/instruction.rs:18-60"]}
{"id": "C54", "title": "Key generation and proving see the same in-circuit hash", "statement": "What a Pow5 permutation, an in-circuit sponge session, Hash::init and Hash::hash lay out does not depend on the values of the words handed in, nor on whether they are known at all: given the same cells (and the same constants for padding), two calls either both fail or both succeed, with the same regions, fixed values, selectors, equality constraints, constants and set of assigned advice cells, and return the same cells. So the keys generated with unknown witnesses are those of every proof: the two layouts accept exactly the same advice and need the same number of rows.", "quantifier": "every Spec, width, rate, column assignment, pair of layouts before the call that differ in advice values only, and pair of messages with any values, known or unknown", "why_tests_cant": "A branch on a witness value shows up only as a proof that does not verify for the values that take the other branch; tests prove a few random messages.", "anchors": ["poseidon-circuit/src/poseidon/pow5.rs: permute, initial_state, add_input, Pow5State", "poseidon-circuit/src/poseidon.rs: Sponge, Hash"]}
{"id": "C55", "title": "The mixing matrices are secure: differences and linear combinations cannot avoid the S-boxes", "statement": "A matrix returned by the generator has branch number WIDTH+1. For the BN254 and Pallas matrices, generated with secure_mds() = 0, i.e. without skipping any candidate, no nonzero difference of states passes three consecutive partial rounds without reaching the word with the S-box, and no nonzero linear combination of the words after three partial rounds is independent of the S-box outputs (with two rounds a difference can, for every matrix). So two runs of the permutation on any two different states give different inputs to at least 35 (BN254) or 34 (Pallas) of their S-boxes; for a Poseidon permutation of any width, 2(WIDTH+1)floor(R_F/4) + floor(R_P/n), where n is the number of partial rounds a difference cannot pass.", "quantifier": "every generated matrix, vector, pair of different states, round constants; both builds of both fields", "why_tests_cant": "The code says the matrix must be secure and takes the number of matrices to skip as given (checked out of band); security is about all differences, and test vectors show only that the tables are the expected ones.", "anchors": ["poseidon-base/src/primitives/mds.rs:26-34 (security of the matrix, select)", "poseidon-base/src/primitives.rs: Spec::secure_mds, permute", "poseidon-base/src/primitives/bn256/mod.rs, pasta/mod.rs"]}
{"id": "C56", "title": "The Septidon chip serves 57 partial rounds only", "statement": "For constants (an implementation of the public trait CachedConstants) with fewer than 57 partial rounds, such as the published Pallas tables, no permutation can be laid out: permute and any non-empty permute_batch panic. With 57 or more, every satisfying assignment computes 4 full, 57 partial and 4 full rounds with the first 65 cached constants. That the chip computes the permutation of its constants for every number of partial rounds it accepts is false: with 58 a circuit is laid out without error and is satisfied by words that are not the Poseidon permutation of the constants.", "quantifier": "every field, every set of constants of width 3 with 8 full rounds, every circuit using the chip and every assignment", "why_tests_cant": "The number of rounds is hard-wired in row offsets and loop bounds; the only implementation of the trait, and hence every test, has 57 partial rounds.", "anchors": ["poseidon-circuit/src/poseidon/septidon/septidon_chip.rs:124-184", "poseidon-circuit/src/poseidon/septidon/transition_round.rs:67-69", "poseidon-base/src/params.rs:5-13,50-52"]}
{"id": "C57", "title": "A Pow5 chip computes the Spec it was configured with, not the Spec named at the call", "statement": "Pow5Config does not carry the type of its Spec, and Pow5Chip implements the permutation instructions for every Spec, so a chip configured with S can be called with another Spec S'. The call uses the constants and the matrix of S. With the number of partial rounds of S it is exactly the call with S. In general, when the parity of the rounds of S' fits, every satisfying assignment computes the permutation with the tables of S and as many partial rounds as S rounded down to an even number plus the parity of S'; a table of S too short for that panics. That the output is the permutation of S' is false, and with an odd number of partial rounds of S' below that of S a row of the state is left out of the chain of gates, so that the output is not even determined by the input.", "quantifier": "every pair of Specs, width, column assignment, circuit around the call, assignment", "why_tests_cant": "Tests configure and call a chip with the same Spec; the type checker accepts any other, and the circuit is built without an error.", "anchors": ["poseidon-circuit/src/poseidon/pow5.rs:33-49 (Pow5Config)", "poseidon-circuit/src/poseidon/pow5.rs:289-360 (permute)"]}
{"id": "C58", "title": "The S-box of a Spec counts in the API but not in the circuit", "statement": "For a Spec with any S-box, the permutation of the API is the textbook permutation with the tables and the S-box of the Spec. The Pow5 chip can be configured with the same Spec without an error, and every satisfying assignment of its circuits computes the permutation with the same tables and x^5. That the circuit and the API agree for every Spec with a bijective S-box is false: with x^7 over a small field the honest prover's circuit is satisfied and its output differs from the API.", "quantifier": "every width, Spec, state, circuit around the call and assignment", "why_tests_cant": "Spec::sbox is a required method and may be any function; all Specs in the crate and its tests use x^5, and the chip builds and proves without an error for any other.", "anchors": ["poseidon-base/src/primitives.rs:54 (Spec::sbox), 99-149 (permute)", "poseidon-circuit/src/poseidon/pow5.rs:108-112,519-649"]}
{"id": "C59", "title": "The Septidon mode for gate degree 5", "statement": "With GATE_DEGREE_5 = true, every satisfying assignment of a circuit with any calls of the Septidon chip still computes the Poseidon permutation. If the permutations fill all rows of the circuit, exactly the assignments accepted in the other mode are accepted. If a row is left over, the input of the first permutation has to be the matrix applied to the fifth powers of three cells of the last row, so an honest prover, whose unused cells are zero, is rejected unless that input is zero. That the mode limits the gates to degree 5, as the comment on the constant and the spec document say, is false: the largest degree is 6.", "quantifier": "every circuit around the chip, number of calls, number of rows and assignment", "why_tests_cant": "the constant is false in every build, so no test compiles this mode.", "anchors": ["poseidon-circuit/src/poseidon/septidon/params.rs:1-3", "poseidon-circuit/src/poseidon/septidon/control.rs:64-80", "poseidon-circuit/src/poseidon/septidon/transition_round.rs:23-66", "spec/septidon.md:5"]}
{"id": "C60", "title": "Byte messages through the hash table", "statement": "Take byte strings laid out as spec/hash-table.md says for the var-len mode: words of k bytes (half a step), least significant byte first, two words per row, zero padding, the number of bytes as the length. If a word fits the field (16 or 31 bytes for BN254), the length and the words determine the bytes (the words alone do not). Streaming such messages into a table never panics; row i of a message carries its two words and the number of bytes from there on, which is at most a step on the last row, and the circuit puts the message hash of the bytes on each of its rows. Conversely, a host circuit that finds all rows of a byte string with one digest, the first one being a head row, has the hash of that byte string, and in a table without sponge collisions two byte strings found with one digest are equal. Two different byte strings with one hash are a collision (or capacity preimage) of the permutation.", "quantifier": "every field, word size, byte string, list of messages, accepted table, choice of looked up rows, both builds, legacy or not", "why_tests_cant": "Tests hash a few word lists and never go through bytes; injectivity of the padding and of the length in the capacity is about all pairs of messages.", "anchors": ["spec/hash-table.md: Var-Len Mode", "poseidon-circuit/src/hash.rs: PoseidonHashTable::stream_inputs, PoseidonHashChip::assign", "poseidon-base/src/hash.rs: MessageHashable::hash_msg"]}
{"id": "C61", "title": "Hash trees through the hash table", "statement": "A host circuit checks a leaf of a binary hash tree (a leaf is the two-word hash of its data in a leaf domain, a node the two-word hash of its children in a node domain) by finding the leaf and every node of the path in the table, none of them being the pair of words (0, 0). Then hashing the leaf up the path with the hash API gives exactly the root. If leaf domains differ from node domains, two leaves found at the same position under the same root, at whatever depths, are the same leaf with the same path, unless two rows of the table are a collision of the two-word hash. Every path can be found in the honest assignment of a table filled with the words of its nodes by fixed_inputs.", "quantifier": "every field, path length, tree position, domains, accepted table, choice of looked up rows, both builds, serial or parallel assignment, legacy or not", "why_tests_cant": "Tests fill tables with two or three independent rows; that chained lookups bind a root to its leaves is about every table a prover can build and every pair of paths.", "anchors": ["spec/hash-table.md: MPT mode", "poseidon-circuit/src/hash.rs: PoseidonHashTable::fixed_inputs, PoseidonHashChip::assign", "poseidon-base/src/hash.rs: Hashable::hash_with_domain"]}
{"id": "C62", "title": "No subspace trails through the rounds", "statement": "Call a sequence of linear subspaces of states a subspace trail when each round maps every coset of one into a coset of the next (an attacker who follows such a trail crosses those rounds for free). With the built-in BN254 and Pallas matrices every trail that starts with a nonzero difference has become the whole state space after two full rounds, and after four partial rounds; this holds for any round constants, so at any place in the permutation. Four is exact: three partial rounds always leave a trail that does not cover the whole space. The permutation of the hash API is the composition of such rounds.", "quantifier": "every subspace of states (dimension 1 to 3), every choice of intermediate subspaces, every round constants; both built-in fields", "why_tests_cant": "The subspaces and their cosets are infinite families for practical purposes (fields of about 2^254 elements); a test can only follow a few differences through a few states.", "anchors": ["poseidon-base/src/primitives/bn256/fp.rs: MDS", "poseidon-base/src/primitives/pasta/fp.rs: MDS", "poseidon-base/src/primitives.rs: permute", "poseidon-base/src/primitives/mds.rs: generate_mds (the matrix is not checked against this)"]}
{"id": "C63", "title": "Exactly which exposed tables are accepted", "statement": "The six exposed columns can be completed to an accepted assignment exactly when: row 0 and the last enabled row have zero words and zero control; each enabled row has head mark 1, or continues the row before it (head mark 0, not the first row, same digest, control not zero and one step less); the digest of each message followed by an enabled row is the sponge over its rows; in each usable row the head mark times the control before it is a number from 0 to the range; and the host's own constraints hold. So the circuit asks for nothing else and nothing less: the permutation chip, the assignment mode and the table contents with which the circuit was laid out do not matter, and two circuits with the same feature legacy, range and step (for example one with the 8-row chip and one with the 38-row chip) accept the same exposed tables.", "quantifier": "every field, host circuit, table size, circuit size, assignment of the exposed columns (honest or not), both builds, serial or parallel assignment, legacy or not; calcs * step + range must not wrap around the modulus", "why_tests_cant": "Tests run the prover's own assignment; which of all assignments are accepted is a statement about every one of them, in both directions.", "anchors": ["poseidon-circuit/src/hash.rs: SpongeConfig::configure_sub, SpongeChip::load", "spec/hash-table.md"]}
{"id": "C64", "title": "The square root finds a root exactly when there is one", "statement": "The square root of the pasta module, given the constants of a field (p - 1 = 2^S * t with t odd, a root of unity of order 2^S) and the limbs of (t - 1) / 2, returns a value whose square is the argument if the argument is a square (zero included), and none if it is not. Whatever constants and exponent it is given, a value that it returns is a root. Its exponentiation over 64-bit limbs is the power of the integer that the limbs spell.", "quantifier": "every prime field, every S including 0, every root of unity of order 2^S, every element; for the second part every S, root and exponent; every list of 64-bit limbs", "why_tests_cant": "There are no tests of it, and the function is constant-time code whose loops keep running after the root is found: that no later pass spoils it, and that one is found for all squares, is an invariant over all 2^254 arguments.", "anchors": ["poseidon-base/src/primitives/pasta/mod.rs: sqrt_tonelli_shanks (private, allow(dead_code))"]}
{"id": "C65", "title": "Circuits that hash digests again: chains, trees, any graph of in-circuit hashes", "statement": "A circuit makes any sequence of fixed-length in-circuit hashes, each over words that exist already, digests of earlier calls included (a chain, a tree, a graph). In every accepted assignment each digest word is what the API hash of the values of its message words gives, so the words together are the evaluation of the same program with the API hash. The calls run exactly when each message is not empty, and the honest assignment is accepted. If two accepted assignments agree on one word, they agree on all the words it was computed from, or two different messages of the same call have the same hash.", "quantifier": "every program of calls, every width and field, every Spec with S-box x^5 and a matching matrix inverse, every host circuit before, between and after the calls, every assignment (honest or not), every message values", "why_tests_cant": "Tests hash one message per circuit. The composition has calls that share columns, constants and cells with one another in any number and order, and soundness is about every assignment.", "anchors": ["poseidon-circuit/src/poseidon.rs: Hash::init, Hash::hash", "poseidon-circuit/src/poseidon/pow5.rs: Pow5Chip"]}
{"id": "C66", "title": "The hash has full degree in each word: few inputs share a digest", "statement": "For BN254 each word of the permutation's output is a polynomial of degree exactly 5^65 in each word of its input (5^64 for Pallas), whatever the other words: no polynomial of smaller degree agrees with it in more than 5^65 places. Hence, with the other word and the domain fixed, at most 5^65 values of a word (about 2^151 of 2^254) give the same digest; the same holds for the domain, and for each word of the last block of a message hashed with hash_msg. With two of first word, second word and domain fixed, the digests take more than 2^102 different values.", "quantifier": "every value of the fixed words, every domain, every message prefix and capacity, every digest, both spec features and the legacy feature; for the degree: every width, field and Poseidon specification, along every line of states on which the leading coefficient does not vanish", "why_tests_cant": "The claims count the solutions of an equation over a field with 2^254 elements; tests see single values. A cancellation of leading coefficients (a weak matrix or too few rounds) shows in no test vector.", "anchors": ["poseidon-base/src/primitives.rs: permute", "poseidon-base/src/hash.rs: hash_with_domain, hash_msg", "poseidon-base/src/primitives/p128pow5t3.rs: P128Pow5T3", "poseidon-base/src/primitives/bn256/fp.rs: MDS, ROUND_CONSTANTS"]}
{"id": "C67", "title": "Several hash tables in one circuit do not interfere", "statement": "A circuit may configure the hash table several times (configure_sub with different columns) and load each table once, in any order, with whatever it lays out in other columns before, between and after. If the whole circuit is accepted, each loaded table is one that a circuit with this table alone could have: everything claimed of a single table holds for each. Whether a load succeeds does not depend on the tables loaded before; the honest prover exposes in each table the values it exposes when the table is alone; and the honest prover is accepted exactly when every table is well formed and the rest of the circuit's own constraints hold.", "quantifier": "any number of tables, of any mixture of permutation chips, constants, STEP, step, legacy feature, modes and sizes, that do not share columns; any host constraint system in between; any assignment of the advice", "why_tests_cant": "Existing tests have one table per circuit. That tables cannot influence each other is a statement about all pairs of configurations, load orders and witnesses; a clash of a selector, fixed or range table column, or a copy constraint to the wrong table, shows only in particular combinations.", "anchors": ["poseidon-circuit/src/hash.rs: configure_sub, SpongeChip::load", "poseidon-circuit/src/poseidon/septidon/septidon_chip.rs: configure", "poseidon-circuit/src/poseidon/pow5.rs: configure"]}
{"id": "C68", "title": "Differential cryptanalysis gets no foothold: few inputs give a chosen output difference", "statement": "An S-box turns a chosen nonzero input difference into a chosen output difference for at most 4 inputs. A full round does so for at most 4^w p^(T-w) states, w the number of words that differ. Two consecutive full rounds follow given differences for at most 16 p of the p^3 states of the BN254 permutation; three consecutive partial rounds for at most 4 p^2. For the hash itself: with two of first word, second word and domain fixed, adding a chosen k to the third changes the digest by a chosen e for fewer than 5^65 values of it, less than one in 2^102; likewise for each word of the last block of a message hashed with hash_msg. (Pallas: 5^64 for the permutation.)", "quantifier": "every nonzero input difference and every output difference, every value of the fixed words, domain, message prefix and capacity, any round constants; both spec features and the legacy feature; the bounds for rounds and lines of states for every width, field and Poseidon specification with the properties named", "why_tests_cant": "The claims bound how many of 2^254 or more inputs solve a difference equation, for all differences at once. A wrong exponent, a skipped S-box or a matrix with a singular minor leaves hashing, circuit and test vectors generated from the code consistent.", "anchors": ["poseidon-base/src/primitives.rs: permute", "poseidon-base/src/primitives/p128pow5t3.rs: sbox", "poseidon-base/src/hash.rs: hash_with_domain, hash_msg", "poseidon-base/src/primitives/bn256/fp.rs: MDS"]}
{"id": "C69", "title": "Digests are evenly distributed: no digest is hit by more than one input in 2^102", "statement": "Over all domains and pairs of words, hash_with_domain takes every digest equally often: exactly p^2 of the p^3 inputs (a, b, domain) have a given digest (BN254 and Pallas). With the domain fixed, at most one in 2^102 of the p^2 pairs has a given digest. Of the p^n messages of n words hashed with hash_msg with the same capacity, at most one in 2^102 has a given digest; in particular at most one in 2^102 collides with a given message.", "quantifier": "every digest, every domain, every message length above 0 and every capacity; both spec features and the legacy feature", "why_tests_cant": "The claims count preimages among 2^508 and more inputs, for every digest at once. A hash that ignores a word or loses part of its state passes tests that compare a few values, yet some digest would get far more preimages.", "anchors": ["poseidon-base/src/hash.rs: hash_with_domain, hash_msg", "poseidon-base/src/primitives.rs: permute", "poseidon-base/src/primitives/bn256/fp.rs: MDS, ROUND_CONSTANTS", "poseidon-base/src/primitives/pasta/fp.rs: MDS, ROUND_CONSTANTS"]}
{"id": "C70", "title": "Two-word hashes are domain-separated from message hashes (fails for two domains)", "statement": "A two-word hash with a domain other than zero should never be the hash of a message without explicit capacity. This is false: with the domain 2 * 2^64 (2 with the legacy feature) hash_with_domain([a, b]) is hash_msg([a, b]) for all a and b, and with the domain 2^64 (legacy: 1) hash_with_domain([a, 0]) is hash_msg([a]). For every other domain, zero included, a two-word hash that equals a message hash gives two different states whose permutations agree on the capacity word, or a state that the permutation takes to the capacity word the other hash starts with.", "quantifier": "every pair of words, every domain, every message shorter than 2^64 words, both features; for explicit capacities: every message and capacity", "why_tests_cant": "The claim is about all pairs of calls of two APIs. Tests compare the APIs on a few words, with the domains 0 and 1 and explicit capacities, and would not meet the two domains that clash.", "anchors": ["poseidon-base/src/hash.rs: hash_with_domain, hash_msg, HASHABLE_DOMAIN_SPEC", "poseidon-base/src/primitives.rs: ConstantLengthIden3, VariableLengthIden3"]}
{"id": "C71", "title": "The worker threads of parallel assignment never meet", "statement": "In parallel mode load gives the calcs rows of the table to at most as many workers as there are threads, in consecutive non-empty parts from row 1 on; every part but the last ends with the last row of a message, and a worker writes to the rows of its own part only. The same holds for permute_batch of the Septidon chip, in parts of whole permutations of 8 rows. So assign_regions never rejects a worker for rows that overlap or for a write outside its part.", "quantifier": "every number of threads, calcs, table, host circuit and layout before; for permute_batch every list of states of three words", "why_tests_cant": "Tests run with the number of threads of one machine on small tables; where the parts begin depends on the threads, calcs and every control of the table.", "anchors": ["poseidon-circuit/src/hash.rs: load, fill_hash_tbl_body_partial", "poseidon-circuit/src/poseidon/septidon/instruction.rs: permute_batch"]}
{"id": "C72", "title": "A hash table is loaded at most once", "statement": "After load of a hash table circuit has returned, every further load of the same circuit configuration fails, whatever was assigned in between and whatever table, calcs and assignment mode it is given. So a circuit cannot end up with two tables laid over each other; a second table needs its own configuration (C67).", "quantifier": "every build, host, layout before, pair of tables, calcs and modes, and every later layout", "why_tests_cant": "No test calls load twice, and the claim is about every second call after anything a host circuit can do.", "anchors": ["poseidon-circuit/src/hash.rs: load"]}
{"id": "C73", "title": "The order of the words matters", "statement": "Moving a word to another place changes the digest for all but few values of the word. For BN254: given b and d, hash_with_domain([a, b], d) = hash_with_domain([b, a], d) for at most 5^65 of the about 2^254 values of a, less than one in 2^102. The same bound holds when one word (or the domain) is put in different places of two calls whose other words are arbitrary, for the two words of the last block of a message after arbitrary earlier blocks and capacities, and for each word of the output of the permutation; for Pallas it is 5^64. In general it holds for any Poseidon permutation on any two lines of states with different leading coefficients.", "quantifier": "every fixed word, domain, prefix, capacity and pair of places; every feature; for the general form every spec, state and pair of directions", "why_tests_cant": "A symmetric hash would pass every round-trip and circuit test. Test vectors show that single pairs differ; the bound is about all 2^254 values of a word for every choice of the others, and rests on the matrices of the built-in constants.", "anchors": ["poseidon-base/src/hash.rs: hash_with_domain, hash_msg", "poseidon-base/src/primitives.rs: permute", "poseidon-base/src/primitives/bn256/mod.rs", "poseidon-base/src/primitives/pasta/mod.rs"]}
{"id": "C74", "title": "The fixed-length hash agrees with the message hash (fails)", "statement": "The fixed-length hash (ConstantLength, also as the in-circuit Hash gadget) and hash_msg start from the same kind of capacity word and absorb the same blocks, so a user could expect them to agree, in particular to prove a hash_msg digest with the gadget. This is false for BN254: the capacity is the last word of the state in one and the first in the other. For every prefix and capacity, any 5^65 + 1 last words include one for which the two hashes differ; and for every prefix there is a last word such that no satisfying assignment of any circuit around the gadget has the hash_msg digest in the gadget's output.", "quantifier": "every prefix, capacity and feature; every host circuit, layout and assignment", "why_tests_cant": "The tests use each hash with its own vectors and never compare them; that they differ for all messages up to a negligible part, in any host circuit, is a statement about all of them.", "anchors": ["poseidon-base/src/primitives.rs: ConstantLength, ConstantLengthIden3, VariableLengthIden3, Hash", "poseidon-base/src/hash.rs: hash_msg", "poseidon-circuit/src/poseidon.rs: Hash"]}
{"id": "C75", "title": "Every session of builder calls becomes an accepted proof under the key of the empty table", "statement": "Take any table made with the builder calls (constant_inputs, constant_inputs_with_check, fixed_inputs, stream_inputs) where each message has as many rows as its start asks for. load succeeds exactly if each expected digest is the one of the hash API. Its honest witness then satisfies the circuit exactly if the host's own constraints do and, when the table fills all calcs rows, the last row is (0, 0) with control 0. In particular, for BN254 a circuit with nothing but the hash table, with its key generated from an empty table in either mode, fits into the rows it should and accepts the honest witness of every such table with fewer than calcs rows; the digest column has the digests of the API; and whatever it accepts is subject to the soundness theorems (C26 and following).", "quantifier": "every sequence of builder calls, table size, step, number of rows, chip, feature, assignment mode and thread count; for the first two parts every host circuit", "why_tests_cant": "The tests prove one or two fixed tables of at most three rows with their own key. That no sequence of builder calls gives a table that cannot be proved is a statement about all of them.", "anchors": ["poseidon-circuit/src/hash.rs: PoseidonHashTable, SpongeConfig::configure_sub, SpongeChip::load", "poseidon-circuit/tests/hash_proving.rs: TestCircuit"]}
{"id": "C76", "title": "A proof of knowledge of a preimage: exactly the right digest is accepted", "statement": "Take the circuit that witnesses a message of N words and an expected digest, hashes the message with Hash::init and Hash::hash on the Pow5 chip and constrains the result to be the expected digest, with the constants column shared with the round constants. With its key generated without witnesses, it accepts only assignments where the output cell has the constant-length hash of the words in the message cells. The witness made from a message and an expected digest has both in their cells and is accepted if and only if the digest is the one the hash API computes. 1 + T + ceil(N / (T - 1)) * (rows of a block) + 1 usable rows are enough, 3 + ceil(N / (T - 1)) * (rows of a block) are needed (so the k of the repository's tests are the smallest possible), and every equality constraint is between columns enabled for it. Synthesis panics exactly for N = 0 and N > T, with or without witnesses.", "quantifier": "every field, specification with an invertible matrix, width, message length, message, expected digest, prover assignment and number of rows", "why_tests_cant": "The tests run the honest prover on random messages with the right digest. They do not try a wrong digest, and cannot try every assignment of a dishonest prover.", "anchors": ["poseidon-circuit/src/poseidon/pow5.rs: tests::HashCircuit", "poseidon-circuit/src/poseidon.rs: Hash::init, Hash::hash"]}
{"id": "C77", "title": "A proof of knowledge of leaves: exactly the right root is accepted, for Merkle trees and any graph of hashes", "statement": "Take a circuit that witnesses N leaves and an expected root, hashes leaves and earlier digests with one Hash::init and Hash::hash per node on the Pow5 chip, in any graph of hashes of any arity, and constrains the last digest to be the expected root. With its key generated without witnesses, it accepts only assignments where the output cell has the root over the words in the leaf cells, and the witness made from leaves and an expected root is accepted if and only if the root is the right one. For the Merkle tree over 2^d leaves the root is the usual recursive one, and two accepted assignments with one root have the same leaves or give two different pairs of words with the same hash. N + (hashes) * T + (blocks) * (rows of a block) + 1 usable rows are enough and N + (hashes) + (blocks) * (rows of a block) + 1 are needed; every equality constraint is between columns enabled for it. Synthesis panics exactly if there are no leaves, or a hash of nothing, or a hash of a word that is not there yet.", "quantifier": "every field, specification with an invertible matrix, width, number of leaves, graph of hashes, leaves, expected root, prover assignment and number of rows; for Merkle trees every depth", "why_tests_cant": "The tests have one hash per circuit. They cannot try every graph and depth, nor every assignment of a dishonest prover.", "anchors": ["poseidon-circuit/src/poseidon.rs: Hash::init, Hash::hash", "poseidon-circuit/src/poseidon/pow5.rs: Pow5Chip, tests::HashCircuit"]}
{"id": "C78", "title": "A proof of knowledge of a permuted state: exactly the right final state is accepted, and it fixes the initial state", "statement": "Take the circuit that witnesses an initial state, permutes it on the Pow5 chip, and constrains the result to equal a witnessed final state word by word. With its key generated without witnesses, it accepts only assignments where the final state is the Poseidon permutation of the initial state, and the witness made from an initial and an expected final state is accepted if and only if the final state is the right one. Where x^5 is a bijection (as in the Pallas base field), every final state can be shown, and from exactly one initial state. The circuit needs just as many usable rows as one permutation and two more: 39 for the repository's own test, whose k = 6 is the least. Synthesis never panics, although there is no column for constants, and every equality constraint is between columns enabled for it.", "quantifier": "every field, specification with an invertible matrix, width, initial and final state, prover assignment and number of rows", "why_tests_cant": "The test tries one initial state with an honest prover. It cannot try every state, nor show that no dishonest assignment is accepted.", "anchors": ["poseidon-circuit/src/poseidon/pow5.rs: Pow5Chip::configure, permute, tests::PermuteCircuit"]}
{"id": "C79", "title": "A circuit of Septidon permutations: only permuted states are accepted, eight rows each", "statement": "Take the circuit that has the Septidon chip alone, configured without any column enabled for equality, and assigns one permutation after another in regions of their own. With its key generated without witnesses, it accepts only assignments where, in each block of eight rows, the final state cells hold the Poseidon permutation of the initial state cells. From any list of states an honest prover gets back their permutations, the witness holds exactly these states and permutations, and it is accepted at every row. In the scalar field of BN254 any final states can be shown, and from just one list of initial states. The circuit takes just eight rows per permutation, so that the repository's test (k = 5, 26 usable rows) has room for three and no more. Synthesis never panics, with states known or not, and makes no equality constraints.", "quantifier": "every field with 57 partial rounds and well-formed constants, every number of permutations, list of states, prover assignment and number of rows", "why_tests_cant": "The test permutes the one state (0, 1, 2) with an honest prover and asks the mock prover about the gates of the first row only; the other rows, other states and dishonest assignments are never tried.", "anchors": ["poseidon-circuit/src/poseidon/septidon/septidon_chip.rs: SeptidonChip::configure, assign_permutation", "poseidon-circuit/src/poseidon/septidon/tests.rs: TestCircuit"]}
{"id": "C80", "title": "Helpers for gates and for witnesses compute the same; logic helpers need bits", "statement": "Each helper of the Septidon chip exists twice, once to build gate expressions and once to compute witness values: fifth power, S-box, matrix product, selection and boolean or. On every row of every circuit, the expression evaluates to what the value helper gives for the evaluated arguments. The values are x^5, the product of the 3x3 matrix with the state, the chosen alternative when the selector is 0 or 1, and the logical or of bits; or is 1 for just those field elements of which one is 1. That or is 0 only if both sides are 0 is refuted outside of bits (2 or 2 is 0). Joining three witness values undoes splitting a state, and splitting undoes joining just for states that are known in full or not at all; for partly known states it is refuted. A cell rotated by any number of rows is assigned in just the row it stands for, and panics if that row is before its region.", "quantifier": "every field, expression, row, assignment of columns, matrix and state", "why_tests_cant": "No test calls the helpers on their own; a wrong helper of one kind would show only as an unsatisfied circuit for the inputs tried, and the unused ones not at all.", "anchors": ["poseidon-circuit/src/poseidon/septidon/util.rs: join_values, split_values, pow_5, matmul, select, or", "poseidon-circuit/src/poseidon/septidon/params.rs: sbox", "poseidon-circuit/src/poseidon/septidon/state.rs: Cell"]}
{"id": "C81", "title": "The exposed columns hold the calls, line by line", "statement": "The column accessors of a hash table configuration give the six advice columns the host passed in, in the same order, and no column added by the configuration. After a session of builder calls whose steps match the circuit, the honest prover's rows 1, 2, ... of these columns are the lines of the calls in order: the digest of the public hash API (of the whole message on each row of a stream), the two input words, the length code that remains, the domain, and 1 if a message starts on the row, else 0. The rows from there to the capacity are the line of the hash of (0, 0) with domain 0, length 0 and start 1. Row 0 and every usable row after the capacity are zero in all six columns.", "quantifier": "every field, constants, feature set, host with six distinct columns, builder session that does not panic and fits, assignment mode and capacity", "why_tests_cant": "The accessors are not called by any test, and tests only check that the circuit is satisfied; a host's lookups rely on the contents of all six columns for every session.", "anchors": ["poseidon-circuit/src/hash.rs: SpongeConfig::commitment_index, hash_tbl_cols, configure_sub", "poseidon-circuit/src/hash.rs: PoseidonHashTable, SpongeChip::load"]}
{"id": "C82", "title": "Limb arithmetic is exact and never overflows", "statement": "For 64-bit words the multi-precision helpers of poseidon-base never overflow their 128-bit intermediate values. adc gives two words worth a + b + carry, with a new carry of at most 1 if the old one was; mac and macx give two words worth a + b*c + carry and a + b*c; sbb, with a borrow of zero or all ones, gives a - b - (0 or 1) mod 2^64 and a new borrow of zero or all ones that is all ones just if the result is negative. The product of two 4-word numbers is exact in 8 words. Along two numbers of any same length, adc adds them with at most one carry out, and sbb subtracts them with a borrow out just if the first is smaller. That sbb computes a - (b + borrow) for every borrow, as its comment says, is refuted: it takes the top bit of the borrow only.", "quantifier": "every 64-bit word, every pair of 4-word numbers, every pair of numbers of the same length", "why_tests_cant": "The file has no tests, and carries that go wrong show only for rare words out of 2^256 or 2^512 cases.", "anchors": ["poseidon-base/src/primitives/fields.rs: adc, sbb, mac, macx, mul_512"]}
