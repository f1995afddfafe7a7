# Formal model of poseidon-circuit in Rocq

The Rust code in /repo (crates `poseidon-base` and `poseidon-circuit`) is modelled as
executable Gallina in `rocq/theories`. This file says what is modelled, how each property of
`properties.jsonl` is stated and proved, what fails, and what has to be trusted.

## Layout

| file | content |
|---|---|
| `Field.v` | operations class `FieldOps` (all the code needs) and law class `PrimeField` |
| `ZpField.v`, `Primes.v`, `NumTheory.v` | integers mod p as an instance, Pocklington certificates, Fermat |
| `Rust.v`, `ListAux.v`, `BigSum.v` | outcomes (value or panic), list and sum lemmas |
| `Primitives.v`, `Specs.v`, `Grain.v`, `Mds.v`, `Bn256.v`, `Pasta.v`, `BaseHash.v`, `Sqrt.v` | model of poseidon-base |
| `Halo2.v` | model of the part of halo2 that is used: expressions, constraint system, regions, layouter, satisfaction |
| `PermuteChip.v`, `Septidon.v`, `Pow5.v`, `Gadget.v`, `SpongeTable.v` | model of poseidon-circuit |
| `SpecHash.v`, `Link.v` | specification of the permutation, sponge and hashes, written from the paper |
| `Built.v`, `ChipUse.v`, `Pow5Use.v`, `GadgetUse.v`, `TableUse.v`, `LookupUse.v`, `GrainUse.v`, `WitnessUse.v`, `DegreeUse.v`, `CollisionUse.v`, `CostUse.v`, `KeyUse.v`, `SboxUse.v`, `SqrtUse.v`, `ProgramUse.v`, `PolyUse.v`, `Tables.v`, `DiffUse.v`, `SessionUse.v`, `PreimageUse.v` | specification vocabulary for circuits: arbitrary host circuits that use a chip, the exposed table as a verifier reads it |
| `*_proof.v`, `Contract.v` | proofs and proof interfaces |
| `*_claims.v` | the lemmas that the property theorems are |
| `Properties*.v` | the theorems, each closed by `exact`, with `Print Assumptions`, and instances of their hypotheses |
| `Examples*.v` | the instances, the witnesses of refuted properties, test vectors |

Order of reading for one property: the English line in `properties.jsonl`, the theorem in `Properties*.v`, the
vocabulary file named in the header of that file, then the model file.

## Modelling decisions

* The field is a type with operations (`FieldOps`), so model code runs on any instance. Theorems
  that need algebra take `PrimeField` (a field with a canonical map to and from the integers
  and prime order). BN254 `Fr` and Pallas `Fp` are built concretely (residues mod p, proved prime).
* Rust arrays and vectors are lists. Array lengths that Rust types fix are hypotheses of theorems.
* A panic (`expect`, `assert!`, index out of bounds, `unwrap`) and an `Err` are the explicit outcome `Panic`.
  `usize` arithmetic is on `nat`/`N`: no real input reaches 2^64 rows. `u64`/`u128` control values are `N`; the
  product with 2^64 fits in `u128` because a control is a `u64`.
* Circuit configuration is run as code: `configure` returns the gates as an expression tree over
  columns and rotations. Regions are run as code that yields assignment events. The layouter places regions
  as `SimpleFloorPlanner` does (first row at which all the columns of the region are free) and yields absolute cells.
* A circuit assignment is: fixed and selector cells from the events, advice cells arbitrary
  (any prover). It satisfies the circuit if every gate polynomial is zero on each of the n rows
  (rotations mod n, blinding rows included), every lookup holds on each usable row, and all copy constraints hold.
* `honest` is the assignment of the events, with arbitrary values in the blinding rows.
* Soundness theorems quantify over any host circuit around the chip: anything before, anything after, in other columns
  or the same ones as far as the API allows, and any assignment.
* Threads: the parallel code paths split lists into chunks whose results are concatenated in
  order; the thread count is a parameter. `assign_regions` fails, as in scroll's halo2, unless the rows measured for the
  workers increase and each worker writes to its own rows only. Data races are excluded by Rust's types and not modelled.
* Features are parameters: `short` of poseidon-circuit (a boolean of `build`, which selects the chip), `short` of poseidon-base
  (selects the hasher, the constants of the Pow5 chip and `hash_block_size`; `build` allows both), `legacy` (a boolean),
  `parallel_syn` together with the environment variable (`assignment_mode`).

## Properties

Statement in `properties.jsonl`; here what is modelled and how it is proved.

* C01 `constants()` of both specs and `permute`; induction on partial rounds: the tails pushed forward through the
  matrix leave the states related by the accumulated vector. Existence of the compact tables is part of it.
* C02-C05, C11 the sponge state machine (`Absorbing`/`Squeezing`) word by word; spec is a fold over blocks;
  invariant: buffered words and pending block. C05: panic iff empty.
* C06 from C03 and C04.
* C07 the encoding (capacity, blocks) is injective and its only collisions are characterised. Collision
  resistance of the permutation itself is a cryptographic assumption and cannot be expressed.
* C08 inverse S-box from gcd(5, p-1)=1 (Fermat), inverse matrix; composition. Any field and width, then BN254 and Pallas.
* C09 state machine of API calls with the OnceCell cache; invariant on the cache.
* C10 from C01.
* C12 refinement between the 80-bit buffer with the `next_bit` index and the infinite LFSR sequence. C41 period argument.
* C48 the draws are chunks of the self-shrunk sequence; induction along the loops with the position in the sequence as invariant.
* C13 finite domain: the model generator run against the literal tables by `vm_compute`.
* C14 Lagrange interpolation argument for Cauchy matrices, any size.
* C15 field identity for the 3x3 cofactor formula; the tables are generated ones (C13), so their minors follow from C14.
* C16-C20 gates evaluated symbolically on an arbitrary assignment of the selector pattern; per-row lemmas composed
  over the 8 rows; blocks stacked by induction on the calls.
* C21-C22 induction on rounds for any width and rate. C25 from C16 and C21.
* C23-C24, C42 composition of the chip with the sponge invariant. C43 refuted.
* C26-C31 the gates of the table as equations on each row; arithmetic of the control column in the integers; induction
  along runs of rows.
* C32 the honest witness row by row, both directions.
* C33-C35, C40, C44 exact characterisation of the events of `load` and of the layouter state after it.
* C45-C47 what a host learns from lookups: from C26-C30 and the arithmetic of the control column. C46 assumes that no two
  messages of the table collide.
* C49 the rows of each call are a block whose cells are functions of the first row; induction along the calls of a session.
* C50 the expression trees built by `configure`, any width; a degree and a rotation bound for each constructor.
* C51 both computations are followed from the last block backwards: equal states give equal blocks and equal capacity
  words before them, otherwise the two states are a collision. This reduces collisions to the permutation; that the
  permutation has no findable ones is a cryptographic assumption.
* C52 refuted; the positive part is the argument of C51 on the rows of the table.
* C53: `step` of Cost_proof.v collects, for one region, how far the next free rows move, what is written below them and which
  columns are copied; steps compose, so the costs of a session follow by induction over its absorb and squeeze calls. For the chips
  behind the hash circuit the claim is read off the contract of Contract.v.
* C54: two runs of one program on layouts that differ in advice values only are related step by step (Key_claims.v, a logical
  relation over both monads); constraint evaluation reads nothing else of a layout.
* C55: the branch number from the invertible submatrices of C14/C15 (support of the vector against the zero rows of its
  image); full rounds in pairs by induction; partial rounds without an active S-box are linear, so the trail condition is a
  determinant for width 3, evaluated on the two tables.
* C56: the last index read from the cached table is 64, so a shorter table fails in the last full round; for longer tables
  the argument of C16 goes through with the first 65 rows. Refuted for 58 partial rounds by evaluating both permutations.
* C57: the call is rewritten into a call with a spec whose number of partial rounds is the one computed, then C21. The
  refutations evaluate small circuits.
* C58: the proof of C02 for any S-box in place of x^5; the chip never asks the spec for its S-box, so C21 applies to the
  same tables with x^5. Refuted by a small circuit.
* C59: the gates of the two modes differ in one factor only, so those without it imply those with it, and conversely where
  the factor is 1. The row before row 0 is the last row, which gives the condition on the first input.
* C36-C38 refinement of the builder to a list of rows; the panicking sessions by induction on the calls, with the lag of
  the controls as invariant. C39 exact panic condition of `load`.
* C60: the byte layout of spec/hash-table.md is defined in BytesUse.v, independently of the code. Chunks of k bytes determine a
  list, and bounded base-256 numbers determine their digits, so the encoding is injective for a given length; the rest combines
  the theorems behind C37, C38, C46 and C51. A table without collisions is a hypothesis of the lookup theorems, as in C46.
* C61: trees and paths are defined in PathUse.v, independently of the code; induction on the path over C45 (each node) and C38
  (completeness). The collision in the conclusion is one between two rows of the table, so the statement is not trivially true.
* C62: subspaces and trails are predicates in SubspaceUse.v. A round maps a line in the direction of an S-box to more than a
  line (x^5 is not affine), so a trail through an active S-box contains the image of that unit vector; the matrix then moves it
  to a vector with another nonzero first word, and three such images are independent (one determinant per field, computed).
  mds.rs:26-30 takes the choice of a secure matrix on trust (`SECURE_MDS`); for the two built-in matrices C62 proves what the
  omitted check is for. The constants of a round do not matter, so nothing is computed from them.
* C63: the relation is in ExactUse.v and speaks about the exposed columns only. Necessity collects C26 to C31. Sufficiency fills
  the added columns: sponge states row by row, inverses of the controls, and the chip's honest block for each state
  (TableExact_proof.v: `sat_build`), so it does not go through `load`. `C63_exactly` asks that the host's constraints do not
  look into the added columns; `C63_any_host` does without. The bound is needed because a wrapped control could make row 1
  continue row 0 (C29).
* C64: the loops of the square root with their four variables each, and `pow_vartime` of ff over the limbs. Invariant of the
  outer loop: still searching (x^2 = b f, z of order 2^v, the order of b divides 2^(v-1), v at most the bound of the pass), or
  found (x^2 = f and b, z are signs, so that later passes only change the sign of x). The inner loop is described by the order
  of b. Fermat gives the start. The function is private and unused; it is covered because it is compiled.
* C65: programs of hash calls are lists of index lists (ProgramUse.v); `calls` lets the host lay out anything between the calls.
  Induction on the calls over the theorems behind C23 and C24; binding is an induction on the dependency of words. The
  collision in its conclusion is between the messages of one call, so the statement is not trivially true.
* C66: along a line of states each word is a polynomial; a full round maps the vector of leading coefficients v to M v^5, a
  partial round to M (v0^5, 0, ..., 0), and the degree is multiplied by 5 (Poly_proof.v). A leading coefficient that is not
  zero bounds the number of roots. For the two matrices in use 13 such steps are computed on integers (`z_check`); the partial
  rounds only need that the corner of the matrix is not zero. Words of earlier blocks of a message are not covered: their
  degree exceeds the field.
* C67: a list of tables with an inductive description of how the constraint system and the layout come about (Tables.v). From
  the exact description of what `load` writes (behind C34 and C40) it follows that loading one table is a step in other
  columns for every other table; the theorems behind C26 to C32 then apply to each. For completeness the copy constraints of
  each load are shown to hold on their own, since the host of one table contains the others.
* C68: (x+k)^5 - x^5 - e has degree 4 in x with leading coefficient 5k. A round fixes the output difference of each S-box, so
  its inputs range over a product of sets of at most 4 or at most p words. Two full rounds contain one with more than T/2
  different words (branch number, C55); partial rounds before a difference reaches the S-box are affine. For the whole
  permutation the polynomial of C66 is used: its difference quotient has degree 5^R - 1. The trails are stated over the rounds
  of the model (`full_round`, `part_round`), not over the textbook ones.
* C69: the triples with a given digest are in bijection with the pairs of other output words (C08); the other two bounds sum
  the one of C66 over the values of all words but the last.
* C70: the sponge collision lemma behind C51 for a two-word call and a message call; which capacities can be equal is
  arithmetic below 2^128. Refuted for two domains, see below.
* C71: a worker's first run assigns one cell, at its last row, so the rows are consecutive; the rows its second run writes
  are read off its events. At most `threads` parts because all parts but the last have at least calcs/threads + 1 rows.
* C72: `assign_table` fails on a column that is already assigned, as halo2's does, and the range table is the first thing
  `load` assigns.
* C73: along two lines the words of the output are polynomials of degree 5^R with the leading coefficients of C66; where these
  differ, the difference has at most 5^R zeros. That they differ for the unit vectors of the built-in matrices is evaluated.
* C74: the messages with a given prefix are lines in different places, so C73 applies. Refuted, see below; the circuit form
  adds the soundness of the gadget (C23).
* C75: the rows of a call satisfy the conditions of C32 because of how its controls fall, and an expected digest sits on a row
  where a message ends, so C39 compares it with the digest of C38. The key of the empty table is the same by C35. The
  instances are the tables of the repository's circuit tests, which the model accepts as the tests expect.
* C76: the gadget theorems (C23, C24) give what the key accepts and that the right digest is accepted, the row counts of C53 that
  it fits, and the layout does not depend on the values (C54's argument), so one key serves every message. The chip's own
  first round constant column is also the host's constants column. The instances are the repository's HashCircuit tests.
* C77: C76 with C65 in place of C23 and C24: by induction over the hashes of the graph, each takes the rows of C53 and the same key
  serves every witness. The circuit is a user's: it only makes the calls of HashCircuit more than once (GraphUse.v says what it
  adds). That the graph of a Merkle tree computes the recursive root is an induction over the depth, a level at a time.
* C78: as C76 with the permutation theorems (C21, C22) in place of those of the gadget. The host has no constants column, which
  the permutation does not need. That a final state fixes the initial one is C08. The row count is exact, as all three regions
  share the first state column.
* C79: the circuit is run by induction over its states: each region starts where the last one ended, because every region uses the
  last advice column (`test_run`). The gates on the stacked blocks are those of C16 and C17 (`stack_gates`, `sept_laws`), for cells
  assigned rather than copied. That final states fix the initial ones is C08. The test's expected vector is evaluated when ExamplesSeptidon.v is built.
* C80: by computation and ring identities; C80_cells: the row of a rotated cell. The helpers no other code calls are in SeptUtil.v.
* C81: the six columns from the configuration (ColumnsUse.v); digests from C38, the start flags by induction over the calls, the
  padding as a hash of two zeros, the blank rows from the list of all writes to the table's columns.
* C82: the words as integers, `u128` with a panic on overflow. Each operation by bounds on its intermediate values, the product by
  composing its 16 steps, the chains by induction on the number of words. No build contains this code today (see below).

## Refuted properties

Each is a theorem `…_refuted` with a witness; the part that does hold is proved beside it.

* C28: if STEP (the range table) is larger than the step of the control column, one control value can start a message of
  one row or of two rows. Witness with STEP 63 and step 62; it is the honest witness of the circuit with STEP 62.
* C30: the last enabled row accepts any digest (its digest is only tied to the permutation by the row after it, which
  is not enabled).
* C45: as a consequence a host that looks up the hash of (0, 0) in the table can be given any value, with any domain.
* C52: the domain column is not constrained on continuing rows (hash.rs has a TODO for a range check on it) and the gate
  adds it to the state. A prover who picks the domain and the words of a continuing row sets the whole state, so two
  messages of the table can be made to end in the same state. A host that looks up the rows of a message one by one
  can be shown the first row of one and the second row of the other: any two pairs of words with any digest. The rows
  looked up have domain 0 and carry the right controls. It is repaired by the host constraint (1 - head) * domain = 0
  on the enabled rows (C52_zero_domains), or by the same gate inside the circuit. C46 excludes it by its hypothesis
  that the messages of the table do not collide. The witness cells are those of an honest load of another table in
  the permutation blocks; only exposed columns and the two flag columns differ.
* C56: constants with 58 partial rounds give a Septidon circuit of 57, without an error.
* C57: a Pow5 chip called with another Spec than it was configured with computes neither: its constants are those of the
  configuration, and the row offsets mix both numbers of rounds. With 57 configured and an odd smaller number called,
  one row of the state is free.
* C58: a Pow5 chip configured with a Spec whose S-box is not x^5 proves the permutation with x^5.
* C59: GATE_DEGREE_5 does not limit the gates to degree 5.
* C70: a two-word hash with domain 2 * HASHABLE_DOMAIN_SPEC is the default hash of the message of these two words, with domain
  HASHABLE_DOMAIN_SPEC and second word 0 that of the message of one word. With the legacy feature these are the domains 2 and 1.
* C74: the fixed-length hash has the capacity as the last word of the state, the hash of hash.rs as the first; they differ on
  all but few messages, so the in-circuit `Hash` does not prove a `hash_msg` digest.
* C40: poseidon-base has the feature `short` by default and poseidon-circuit depends on it with its defaults, so switching
  `short` off in poseidon-circuit alone selects the Pow5 chip (38 rows) while `hash_block_size` still counts 9 rows per
  permutation; `minimum_row_require` is then too small by a factor of four.
* C33: parallel mode drops the rows in excess of `calcs` silently.
* C43: the circuit sponge ignores `Domain::layout`, so it disagrees with the primitive sponge for the iden3 domains.
* C44: parallel mode leaves the exposed columns free from row 1 on, so a later region of the host can overwrite the table.
* C80: `or` of two field elements that are not bits can be 0 (2 or 2); `split_values` after `join_values` forgets the words of a
  partly known state.
* C82: `sbb` subtracts the top bit of its borrow, not the borrow; its comment holds for borrows that `sbb` itself returns, read as 0 or 1.

## Other findings

Behaviour that a user could trip over, each visible in a theorem or in the model.

* The custom first row is not tied to any hash: digest, domain and head can be anything (C31).
* Hashing an empty message panics (C05).
* With an explicit capacity, messages that differ by a trailing zero word collide (C07).
* `constant_inputs` followed by `stream_inputs` on a table whose controls are shorter than its inputs panics (C37). A
  call of `fixed_inputs`, even with no rows, between them avoids it (C37_sessions).
* The README says that a message of 19 words with step 32 takes a start between 298 and 320; it is 289 (C37_readme).
* `stream_inputs` accepts a start that is too large for its rows; the message is then not terminated and continues into
  the next rows of the table (C37).
* `minimum_row_require` counts n permutations although an honest load needs n+1, because the last row must be a zero
  row (C32, C40).
* Entries of `domain` and `checks` beyond `calcs` are dropped in both modes; a check there is never made (C39).
* On a continuing row the witness does not add the domain to the state although the gate asks for it, so a table with a
  domain on such a row loads but does not satisfy the circuit (C32).
* Nothing checks that `SpongeChip::STEP` equals the step given to `configure_sub`. If STEP is larger, the control
  column no longer fixes the message length (C28).
* Features are not propagated: `legacy` of poseidon-circuit does not switch on `legacy` of poseidon-base.
* The comment in septidon/params.rs says that GATE_DEGREE_5 limits the gates to degree 5. The transition gate
  (transition_round.rs) multiplies its signal by a fifth power whatever that constant is, so its degree is 6 in both
  modes (C59); the code has a TODO for it. With the constant as it is, 6 is the exact bound (C50).
* Two helper cells per Septidon block are free (C18). They do not matter for the output.

## Wrong programs

`seeded/LOG.jsonl` records every attempt to break a definition of the model and see a theorem fail. The edits written by hand are
bugs one could make in the Rust code. The mechanical ones change one constant, operator, index, list element, statement or branch of a
definition. An edit that broke nothing was examined; the entry says why no claim is false of it (for example an unreachable branch),
or which theorem was tightened.

## Trusted base

* The Coq 8.16.1 kernel (including `vm_compute`) and the standard library.
* `Print Assumptions` answers "Closed under the global context" for every theorem of `Properties*.v`: no axiom is used,
  not even one of the standard library.
* Faithfulness of the model to the Rust text. Every definition cites its file and lines; a simplification is stated in
  the comment that cites them.
* The halo2 semantics written in `Halo2.v`. halo2 is a dependency outside /repo and is modelled from its documented
  behaviour: expressions, columns, `SimpleFloorPlanner` including the two passes of `assign_region` and of
  `assign_regions` (scroll's fork), constants columns, table columns (assigned once, padded with
  their first value).
* The proof system itself (commitments, Fiat-Shamir): that a verified proof implies a satisfying assignment is the
  soundness of PLONK and is not modelled.

### Modelled

All of the code below that is not under `#[cfg(test)]`.

* poseidon-base: `hash.rs`, `params.rs`, `primitives.rs`, `primitives/p128pow5t3.rs`,
  `primitives/p128pow5t3_compact.rs`, `primitives/grain.rs`, `primitives/mds.rs`, the tables of `primitives/bn256` and
  `primitives/pasta`, the square root of `primitives/pasta`.
* poseidon-circuit: `hash.rs`, `poseidon.rs`, `poseidon/pow5.rs`, `poseidon/septidon/*.rs`.

### Not modelled

* `primitives/binops.rs`: macros for operators, not compiled (its `mod` line is commented out). `primitives/fields.rs` is not
  compiled either, but modelled in Limbs.v (C82).
* Field arithmetic of halo2curves (Montgomery limbs): replaced by arithmetic mod p.
* Names, annotations, logging and timing; `Debug` and `Clone` derivations.
* The benches and the tests, except the circuit of tests/hash_proving.rs (`standalone` in SessionUse.v) and
  HashCircuit and PermuteCircuit of pow5.rs (PreimageUse.v, PermuteUse.v) and TestCircuit of septidon/tests.rs (SeptidonUse.v).
