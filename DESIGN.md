# Formal model of chengchen98/proof_of_storage — design

The repository contains two Rust programs: `proof_of_storage` (seal a file with a
sloth-based delay function, challenge blocks, unseal and compare) and
`proof_of_space` (fill a file with an inverse table of a MiMC delay function and
prove possession with a Groth16 circuit).  Everything is read as text; nothing of
`/repo` is built or run.

## 1. How the code is modelled

* Every function is a Gallina *function* (fuelled where Rust has `loop`/`while`
  or recursion on data), so behaviour is computed, never postulated.
* `res A := Ok a | Panic`.  Out-of-bounds indexing, `unwrap` on `None`/`Err`,
  failed `assert_eq!`, slice errors, division by zero and (where it matters)
  arithmetic overflow are `Panic`.  Fuel exhaustion is a separate value which a
  theorem excludes, or which *is* the theorem for the diverging functions.
* Bytes are `Coq.Init.Byte.byte`; files are `list byte`; reading past the end
  leaves zeros (`File::read` into a zeroed buffer); writing past the end extends.
* `rug::Integer` / `num_bigint::BigInt` are `Z`; `%` is the truncated remainder
  `Z.rem`, `/` is `Z.quot`; `to_digits` gives the minimal little-endian digits of
  the absolute value.
* `usize` in the seal/verify code is `nat` (lengths and indices bounded by file
  sizes; C98 compares this with 64-bit offsets, `Machine.v`); in `depend.rs` and `convert.rs`, where overflow is reachable, it is `Z`
  with an explicit 64-bit width and a build profile (`Debug` panics on overflow,
  `Release` wraps).
* BLAKE3 / SHA-256 are *universally quantified* functions `list byte -> list byte`
  (with the hypothesis "32 bytes" where it matters).  No cryptographic assumption
  is made; binding theorems are stated as "or here is a collision".
* Random generators are universally quantified streams.
* The prime-field scalar type is a universally quantified commutative ring/field
  for circuit theorems, with the concrete `Z/r` (BLS12-381) as an instance.
* Threads: `batch_unseal_parallel` is a transition system whose steps are the
  lock-protected reads and writes of each worker; theorems quantify over all
  interleavings.

When the code does *not* have a property a user would expect, the theorem says so:
the exact behaviour is proved for all inputs, and a `_refuted` theorem gives a
witness against the expected statement.

## 2. Property plan

| id | plan |
|----|------|
| C01 | fuel-sufficiency of the `legendre` model for all integers (induction on a decreasing measure) |
| C02 | Gauss/Schering half-system sign for odd coprime pairs, Eisenstein lattice count for reciprocity, Gauss' lemma, Euler criterion; then induction on the recursion |
| C03 | from C02: squares have a unique even root; single-round inverse both ways, iterate |
| C04 | direct computation of the rounds at 0, -1 for general p |
| C05 | little-endian digit lemmas + C03 |
| C06 | function-by-function equality of both models on the stated domain; chunk induction |
| C07 | loop invariant res * x^t |
| C08 | Pocklington criterion proved in the development + certificates checked by `vm_compute`; sizes not certified stay hypotheses (partial) |
| C09 | modular arithmetic on `le2z` |
| C10–C13 | list induction / computation |
| C14–C20 | loop invariants over arbitrary hash functions; reach bounds by bounding the digit sum |
| C21 | list induction over units |
| C22–C29 | `seal`/`unseal` as folds over blocks, rounds, units on a file; ghost log of the integers fed to the delay function; simulation lemma "inverse step undoes step", causal invariants; crash points are prefixes of the outer fold |
| C30, C31 | stream-driven loop; set invariant; pigeonhole for divergence |
| C32 | arithmetic on the stepping loop |
| C33–C39 | per-block unsealing related to the seal step of that block; parallel version as transition system with commutation/independence invariant |
| C40–C41 | bincode encoding as length-prefixed strings; decimal printing/parsing round trip |
| C42–C44 | composition of the above in a model of `test_pipeline` |
| C45–C47 | Merkle tree with odd node promotion; proof verification as level-by-level recombination; collision extraction by induction on levels |
| C48–C50 | bit-list inductions, 64-bit arithmetic |
| C51–C54 | refinement of the bit-packed file to an abstract table `slot -> option x` |
| C55–C63 | constraint systems as lists of rank-1 constraints produced by a synthesis function; satisfaction over all assignments |
| C64, C65 | case analysis over an arbitrary backend / random stream |
| C66 | field identity |
| C67 | the C23 machinery without the assumption that the file was produced by `seal` |
| C68 | the run as a composition of the Space model, the circuit and an arbitrary proof library |
| C69 | direct computation of the synthesis |
| C70, C71 | stage semantics: a list of block states, one per step, with an equation per step; existence and uniqueness by induction on the step number |
| C72 | unfolding of the reads, stated with the same spec predicates |
| C73 | as C71, with dependency data and chain value taken from the response |
| C74 | C73 read backwards: sealing the original with arbitrary dependencies satisfies the verifier's equations |
| C75 | the verifier's equations turned round are sealing equations while every number stays in 1..key-1; those have one solution |
| C76 | file_compare.py as a fold over the common positions; equality of prefixes and a duplicate-free list of differing positions |
| C77 | prime.py with the drawn bases as an argument; verdict characterised by strong probable primality; primes pass (Fermat + square roots of 1); for a composite the passing bases multiplied by four suitable numbers stay different (powers of 1 + n/p if p^2 divides n, sign vectors by Chinese remainders for three coprime factors, a sign vector and a base violating the Fermat test for two primes), so at most a quarter passes |
| C78 | the candidate search by induction over the drawn candidates |
| C79 | test_modpow.py with IEEE double rounding of t/2 as an integer function; equal to t/2 below 2^53; overflow by size of the mantissa/exponent |
| C80 | a run as a relation on the four files, histories as its closure; invariant "the files are those of the last sealing run", then C42's theorems for the checks |
| C81 | the equations of C71 for an arbitrary stored file give, block by block, the reply equations of C73; so responses unseal to the blocks of the unsealed file, and batch_verify is a comparison with the restored file |
| C82 | strong induction on the block number: chain value and dependencies of block k come from blocks before k, then C75's determinacy |
| C83 | a permutation of the range that takes one set to another acts on draw sequences and runs the loop in lockstep, so it injects the sequences for one set into those for the other; unfinished sequences are covered by sequences over c - 1 values |
| C84 | C81_challenge says which challenges pass, C83 counts them; (n choose c) by its recurrence |
| C85 | the fold of rounds as an inductive relation; permutation by the inverse exponents 5^-1, 7^-1 modulo r - 1 (Fermat, from the primality proof of r); preimages of the Feistel-like delay functions by running them backwards |
| C86 | C51 gives the table; x + d under key is x under key + d by ring arithmetic; the missed challenges inject into the x below d (pigeonhole) |
| C87 | the unsealing equations of C71 for two files side by side, by induction over the steps |
| C88 | `save_data_upto k`: the write cut off after k bytes; the encoding is decoded piecewise; what is lost by C87 |
| C89 | completeness of the tree's own proof (C46) gives the root it computes; root binding (C45) for two files |
| C90 | Crash.v adds a kill after k bytes of any write to the model; the states are computed by the prefix forms of the seal and unseal inverses (C23) and the result is an equivalence |
| C91 | the unseal loop started at a later iteration only looks at earlier blocks; locality of restored blocks (C87) for a full rerun |
| C92 | count the bit tables: binomial sum by induction on the number of challenges, union bound by the same recursion; C54 and C68 reduce a run to the number of answerable challenges |
| C93 | the pass of one block forward with one list and back with another is the identity iff the hashes agree unit by unit; the lists are evaluated through C20's closed forms; the pipeline as in C42 with the roots left open |
| C94 | the layers consume a prefix of known length (induction over the depth); the binding induction of C47 also yields the helper hashes |
| C95 | determination: strong induction over the block with the functional meaning of sealing (C70) and `long_choice`; prefix: causality (C26) and injectivity of one block; count: the log grows by one per unit and round |
| C96 | the torn file byte by byte; a panic follows from a zero byte in the text, from a digit as the top byte of a length, or from a short file; the torn length field is computed for the six pairs of key lengths |
| C97 | the four functions with the number of delivered bytes of each read as argument; the sealing and unsealing invariants carried through with partial blocks (a partial block has smaller units, so it stays below the modulus); witnesses for each kind of read |
| C98 | the functions once more with checked or wrapping offsets and a seek limit; a range of pieces that is not wholly below the limit contains one whose offset lies between the limit and 2^64 (the step is below 2^63), so some iteration panics whatever the state is |
| C99 | SpaceCrash.v adds a kill after any bit of any value; the bits that have reached the file are those of complete bytes; the largest-value-wins invariant of C51 is proved over arbitrary old content, and slots determine the file |
| C100 | ShortVerify.v repeats the reading functions of verifier.rs, merkle_tree.rs and postorage.rs with a byte count per call; answers are described by the arrived bytes, unsealing by the reply equations of C73, comparison by the data bytes of the units |
| C101 | a relation between two files (equal up to zeros at the end) carried through every loop of the model; the lengths of what seal and unseal write; equality with the filled-up file from both |
| C102 | the loops are split before block 0 and before unit 0; everything before is equal for the two ivs, what is written afterwards lies in block 0 or unit 0; for the threads an invariant that no job works on block 0 |
| C103 | Paths.v repeats the calls on a disk (place -> file) with every open; loop invariants for the copies (source emptied: it contains the zeros written so far), a frame predicate and a congruence for equal disks carried through the calls |
| C104 | Report.v repeats the driver and the pipeline with the text they append, SpaceReport.v the samples of the proof of space; refinement to the runs of C80, C42 and C68, a progress predicate carried through the steps, cutting lemmas for fields and lines (the lines are a prefix code) |
| C105 | Live.v repeats the answering functions with the content of the file at every read as an argument; the moments are the states of Crash.v; all of them agree with the sealed file below the block reached, and an answer for block k reads no block above k |
| C106 | Work.v repeats the delay function, unsealing and the verifier with a record of what is handed to the expensive operations (for sealing the log is there already); forgetting the record gives the model back; the counts follow from the shape of the loops, and what is undone from the loop-by-loop inversion of C23 carried out with logs |
| C107 | Room.v repeats the writing functions on a file with an amount of free room; a loop with room does what the loop without does as long as the file fits and otherwise stops in the first write that does not; the run follows by composing, with the undisturbed run of C90 |
| C108 | Side.v gives each call as a tree of single accesses, equal to the call of Paths.v when run alone; schedules are a relation on a disk and a list of trees; apartness by an invariant that each tree, run on from here, gives what it gives alone; termination by well-foundedness of the trees; the shared public file by an invariant on where each saver stands and which bytes may be whose |
| C109 | the unsealing equations of C71, read backwards, are the sealing equations of C70 with the masked numbers sloth_inv(unit); the logged numbers of seal are proved to be those masked numbers, so no zero is logged; both directions and uniqueness give the exact image; layers by induction |
| C110 | the three functions once more in a state monad over file, room and record of accesses (SpaceDisk.v); one induction over the bits of a slot gives the accesses and the agreement with Space.v; counting by arithmetic of bit positions |
| C111 | a dishonest prover as a program over the same primitives (Thrifty.v); the table lemma of C51 for slots of any width; the largest preimage is the largest one in its block of 2^k numbers; induction over the challenges |
| C112 | the functions of the space as processes of single accesses (SpaceSide.v, in the sense of Side.v); an invariant on the bytes of the file closed under every write a marking run can make; induction over schedules; the two failures by carrying out a schedule |
| C113 | the body of the sealing loop run for chosen blocks (Reseal.v, not a function of the repository); invariant of the loop over the chosen blocks from the description of a sealed block; the answer as a function of the block, the hash before it and its dependencies |
| C114 | a collector of unsealed blocks (Gather.v, not a function of the repository); invariant of the collector: asked blocks are the original's, the others zero; union bound over the blocks that a run of challenges may miss, with the exact share of draws that miss one block |
| C115 | the verifier's part of a challenge for arbitrary messages (Gather.v `judge`); the pool's result block by block (C37); a job without dependencies panics in its first unit |
| C116 | judge of Gather.v (the verifier's part of a challenge for arbitrary messages) decomposed into its checks; the pool's result block by block (C37, C36) |
| C117 | Grow.v: the loop of seal started at block k; sealed blocks of two runs with different numbers of blocks compared by the relation of C26, rows and draws depending on the number of blocks only through the step; log shown to be only added to |
| C118 | batch_unseal split into its blocks (VerifierFacts), the conditions of C116, the replies of C33 for unchanged blocks and made-up ones (C74) for changed blocks |
| C119 | a prover's program made of the code's own loops (Demand), the sealing and unsealing equations of one block (ReplyMeaning), blockwise acceptance (C118), counting (WorkFacts) |
| C120 | the run as a tree of accesses (SpaceProg), an invariant on files no longer than the space whose bytes are all fine, kept by every access of every run (SpaceProgFacts), schedules built from whole parts of runs, one schedule carried out for the stray mark |
| C121 | the access trees of Side; an invariant on the file (each block is the starting block after whole passes) that every access of every run keeps whatever the others do, with the blocks a run has already written as facts that no later access undoes; loops over units by the units already stepped; nested runs by induction with C23; the overlapping schedules carried out for the refutations |
| C122 | sealing written as one step after the other on the whole file; each step is one-to-one where it meets no zero (its inverse is a step of unsealing) and meets one for at most one value of its unit for each choice of the others, since the mask does not depend on that unit; the bounds of the steps add up; vectors of numbers below the key are counted through their positional value |
| C123 | a relation between results (what the one returns the other returns) that every sequence, loop and map keeps and that checked and wrapping arithmetic satisfy, carried through every function that depends on the build; equality from the tables of the supported settings and from the ranges of the space; the rule that fails by its first row |
| C124 | the inverse of d rounds is one of 2^d polynomials of degree 2^d with leading coefficient 1 or -1, each with at most 2^d fixed points modulo a prime; the sealing equations of C70/C109 with the other number of rounds, whose states coincide when there is one round of sealing; files counted by the words of their sealed units over the fixed points |
| C125 | the sealing equations backwards: the states of the first steps of unsealing are those of the last steps of sealing; the remaining steps are the sealing equations with fewer rounds |
| C126 | in an unchanged file the last unit is what the delay function makes of itself and a mask that the rest of the file determines; a polynomial of degree 2^t for each of 2^t branches bounds the last unit by 4^t values; files counted by what comes before the last unit |
| C127 | the first step of sealing is the only one that reads the iv; the delay function is injective on nonzero values below the key, so equal sealed first units give equal masks; equal masks give the same sealing equations |

## 3. Trusted base

1. Coq 8.16.1's kernel (including the `vm_compute` conversion used for the primality
   certificates and a few closed computations).  No plugin, no extraction, no axiom of
   this development, no `Admitted`.
2. Axioms reported by `Print Assumptions`.  Every theorem listed in section 7 prints
   "Closed under the global context", except the ones in its third column.  Those
   use primality certificates that are evaluated with Coq's 63-bit machine integers, and
   depend on the standard library's primitive-integer operations and their
   specifications, and on nothing else:
   `PrimInt63.{int, add, sub, mul, div, mod, land, lor, lsl, lsr, eqb, ltb, leb}`,
   `Uint63.{add_spec, sub_spec, mul_spec, div_spec, mod_spec, lsl_spec, lsr_spec,
   lor_spec, eqb_correct, eqb_refl, ltb_spec, leb_spec, of_to_Z}`.
   A whole-library listing (as `coqchk -o` prints it) additionally names axioms of loaded
   library files that no theorem here uses: the remaining `Uint63`/`PrimInt63`
   constants and ssreflect's `Under_rel`/`Over` constants.
3. The reading of the Rust text.  Each definition cites the lines it transcribes;
   simplifications are stated in the comment next to the definition.
4. Transcriptions of libraries whose source is not in /repo:
   * rs_merkle 1.2 (`MerkleTree::from_leaves`, `root`, `proof`, `MerkleProof::verify`,
     byte encoding): from its published algorithm, `Merkle.v`.
   * bincode 1.3 default encoding of a struct of a string and a byte vector, and decimal
     printing/parsing of big integers: `Postorage.v`.
   * GMP/num-bigint operations: `Z` arithmetic with truncated `/` and `%`.
   * ark-ff: `Fr` is `Z` modulo the BLS12-381 group order with canonical representatives
     (`Field.v`, `FrField.v`; its primality is proved); other fields are arbitrary.
   * ark-relations: `ConstraintSystem` allocation and `enforce_constraint` (`R1cs.v`).
   * the `threadpool` crate: FIFO queue, bounded workers, a panicking job ends as
     finished (`Verifier.v`, `step`).
   BLAKE3, SHA-256, the random generators and ark-groth16 are not transcribed: every
   theorem holds for arbitrary functions in their place (with stated hypotheses such as
   "hash values have 32 bytes").

## 4. What is modelled, file by file

| /repo file | model | not modelled |
|---|---|---|
| proof_of_storage/src/vde/rug_sloth.rs | Legendre.v, Sloth.v: all functions, constants; Work.v: with a record of the powers and of the calls of the residue test | tests |
| …/vde/rug_vde.rs | Sloth.v `vde`, `vde_inv` | tests |
| …/vde/sloth.rs, numbig_vde.rs | Sloth.v `big_*` | random helpers of the tests, tests |
| …/vde/compare_modpow.rs | Sloth.v `fast_modpow`; Work.v: with the number of multiplications | timing comparison |
| …/vde/prime.py, test_modpow.py | Scripts.v: is_prime, rabin_miller, get_prime, fastModPow (with the float rounding of `int(t/2)`) | timing loop, printing |
| …/proof_of_storage/file_compare.py | Scripts.v `file_compare` | reading the files, printing |
| …/proof_of_storage/common.rs | Common.v: all but the hash wrappers and the printing helpers | md5 (unused), timing |
| …/depend.rs | Depend.v: all functions | the warning loop of short_mode_1, tests |
| …/prover.rs | Prover.v: all functions, with crash points between blocks | timing counters |
| …/verifier.rs | Verifier.v: all functions; the thread pool as a transition system; Reseal.v: sealing lost blocks again, Gather.v: data from accepted answers, Demand.v: sealing on demand (none of these in /repo) | timing |
| …/merkle_tree.rs | Merkle.v: all functions | tests |
| …/postorage.rs | Postorage.v: save/load, prepare_params, seal_and_unseal, unseal-and-verify driver, Merkle driver, the pipeline test; Driver.v: the experiment driver `test_postorage` and histories of runs; Crash.v: `seal_and_unseal` killed at any byte of any write; Side.v: the run and its calls access by access, several at once on one disk; Room.v: the writing functions and `seal_and_unseal` on a disk that may be full; Paths.v: the calls on paths (equal paths, missing files, what a panic leaves); Live.v: answering while the sealed file changes; Report.v: the result files and `should_save_run_data` | how times are measured |
| proof_of_space/src/mimc/*.rs | Mimc.v: all functions | tests |
| proof_of_space/src/proof_of_space/convert.rs | Convert.v | tests |
| …/prover.rs, verifier.rs, pospace.rs | Space.v, SpaceRun.v; SpaceCrash.v: preparing and marking killed at any write; SpaceReport.v: the result file; SpaceDisk.v: the accesses, and a full disk; SpaceSide.v, SpaceProg.v: calls and whole runs side by side on one file; Thrifty.v: a prover that keeps less (not in /repo) | how times are measured; Groth16 is arbitrary |
| proof_of_space/src/circuit/*.rs | Circuits.v: all seven circuits | tests (Groth16 round trips) |
| proof_of_storage/src/circuit/sloth_circuit.rs | — | does not compile (missing fields and modules), not reachable from `main.rs` |
| proof_of_storage/src/zk_vde | — | two empty files and an unfinished one |
| privacy_transaction | — | commented-out code and structs without behaviour |

Conventions shared by all rows: file-system errors other than a missing file (and, in Room.v, a full disk) and memory exhaustion are not modelled; access by other processes is modelled where Live.v and Side.v say so and left out elsewhere; short reads
are (ShortRead.v, ShortVerify.v for the storage code; the space code reads single bytes, for which a short read is the end of the
file; all writes use `write_all`); sizes in the storage code are naturals
(no overflow; Machine.v and C98 treat the 64-bit offsets), 64-bit arithmetic is explicit in Depend.v, Convert.v, Space.v and in
`prepare_params`.

## 5. Findings: where the code does not do what a user would expect

Each is a theorem (a witness, or an exact characterisation that includes the defect).

* C04/C25: the residue 0 leaves the field (-1); a masked unit that hits 0 is not restored.
* C16: `short_mode_2` panics (debug) or returns almost nothing (release).
* C19: random dependencies only reach the first few hundred blocks or units, since the
  index is a sum of bytes, not a positional number.
* C24: `unseal` with deterministic long dependencies reads block `i` instead of
  `idxs_l[idx2][i]`; data is corrupted.
* C28: running `unseal` again after an interruption corrupts the restored blocks.
* C31: asking for more challenges than blocks loops forever.
* C32: an unaligned byte range misses its last block.
* C37: a panic in a worker of the parallel verifier is swallowed and the sealed block is
  returned as if it were unsealed.
* C39: the short-dependency table of `seal` is sized by the number of blocks.
* C41: for unit sizes other than 64, 128 and 256 bytes the key does not fit the unit.
* C43: the response hash does not bind the shape of a response.
* C44: the Merkle check of the pipeline does not look at the blocks of the response.
* C45: the file tree starts at the second block; the first one can change without changing
  the root, and the pipeline's final root comparison does not notice it.
* C47: the leaf count is not bound by a root.
* C53: a space with n = 2 can contain answers that no x produces.
* C57, C58, C59, C61, C69: the circuits leave wires unconstrained; every public statement
  has a satisfying assignment, so a proof-of-space proof shows nothing.
* C64, C68: `verify` accepts when the library answers "invalid".
* C66: the remainder helper of the sloth circuit is always 0.
* C74: responses can be made up from the original file without the sealed file.
* C75: the inverse delay function maps 0 and key - 2 to the same number, so a stored block
  whose last unit is key - 2 has a second accepted form.
* C76: the file comparison calls a truncated copy right.
* C77: the primality test lets 1009^2 through when every drawn base is 990.
* C79: the Python exponentiation halves the exponent in floating point; it is wrong from
  2^53 on, hence for every modulus it is used with, and raises OverflowError for the larger ones.
* C80: `test_postorage` with sealing and unsealing in one run destroys the sealed file, so a
  later single-block check panics; a later sealing run without unsealing leaves the old
  unsealed file, so a later proof of leaves panics.
* C81/C82: the verdict of a challenge does not depend on the Merkle tree of block ids at
  all (the ids are never compared with the blocks sent), and `batch_verify` compares only
  the first `unit_l` bytes of each unit, so a prover may store the file sealed with other
  pad bytes: C82_pad_bytes_unchecked, C82_accepted_is_honest_refuted.
* C83/C84: probabilities are stated as counts over all sequences of draws, because the
  code draws with `gen_range`, which is modelled as an arbitrary stream.  That the generator
  makes the sequences equally likely is not modelled.  `create_challenges` has no bound on
  its number of draws: C83_always_enough_refuted.
* C85: the list hashes are plain chains without length or domain separation: the hash of a
  list is the key for what follows (C85_extension), and a list and its tail have the same
  hash under different keys (C85_binding_refuted). The first round constant is never used.
* C86: mark_space feeds `x + key` to the delay function, so a space marked for one key can
  be reused for key + d by subtracting d from the answers; at most d challenges are lost.
* C87: the iv influences block 0 only, and a block can be restored (and a challenge on it
  answered) from at most cnt_l + 2 stored blocks. There is no dependency on later blocks.
* C88: the iv is written only after sealing has finished, over the old data and without
  truncation. A crash in between is not noticed by load_data when an earlier run left data
  of the same size (C88_overwrite); block 0 is then lost (C88_crash_safe_refuted), the
  other blocks are not (C88_loss).
* C89: the proof of the leaves is no spot check. Leaves, proof and leaf count come from the
  unsealed file, so the drawn indices have no influence; only the roots are compared, and
  the first block is in neither tree.
* C90, C91: sealing and unsealing rewrite the file in place with no record of progress.
  After a kill nobody can tell from the files how far it got, unseal has no way to start in
  the middle, and starting over spoils the blocks that were back already
  (`C91_idempotent_refuted`). Sealing over an existing sealed file loses the old data at
  once, while the old public data stay until the end (RC_pad, RC_seal). The kill is one of
  the process: writes reach the disk in program order.
* C92: the 50 of 100 threshold makes an honest run fail with a probability that depends on
  how many values the delay function hits, and nothing in the code estimates that number.
  The bound for small files speaks about `response_1`; since the verdict of the proof is
  ignored (C64), a prover that makes answers up is not bounded by it.
* C93: `unseal` (prover.rs line 383) reads block `i` instead of `idxs_l[idx2][i]`. With a
  deterministic rule the spot checks, which use the list, keep passing while the file can
  no longer be restored from the sealed one.
* C94: surplus hashes in a proof are ignored, so a proof is not a unique encoding.
* C95: after block 0 the iv has no influence of its own: two ivs giving the same first sealed block give the same sealed file.
* C96: public data torn by a crash over data of a run with a longer key is accepted; the iv then ends in digits of the old key and block 0 is lost.
* C97: the result of `read` is ignored: one short read while copying, sealing or unsealing silently loses a block.
* C98: a release build of `single_unseal_prepare` answers for block numbers far outside the file with a stored block (the offset wraps); `batch_unseal_prepare` with an end within one block of 2^64 does not terminate.
* C99: marking is not atomic per slot. When the slot length n + 1 does not divide 8 (the shipped one is 21), a slot crosses byte boundaries and a killed run can leave a flagged slot mixing two values: the prover then gives an answer that does not map to the challenge (`C99_torn_refuted`). With slots of 4 or 8 bits this cannot happen (`C99_whole`).
* C99: marking a file that was not freshly prepared is accepted: stale answers of another key remain (`C99_other_key_refuted`), and in a file that is too short the read past the end keeps the previous byte, which is then written into the neighbouring slot (`C99_unprepared_refuted`).
* C100: read_file ignores the number of bytes delivered, so verification has both errors: one short read of the challenged block, the block before it, a dependency or the original makes an honest prover fail, and a stored file that has lost half a block passes when the verifier's read of that block is short (`C100_noticed_refuted`, `C100_tree_refuted`).
* C101: a stored file or an original that has lost its end is not noticed: reading past the end gives zeros. Unsealing succeeds, restores a file of the full length, and the lost part is wrong data (`C101_noticed_refuted`).
* C102: the iv protects one block. A wrong iv is not noticed by unsealing, and all blocks but the first are restored without it (`C102_iv_needed_refuted`).
* C103: the paths are not compared. A run that seals in place of the original succeeds and destroys it (`C103_any_paths_refuted`), unsealing into the sealed file leaves zeros, and the new file is emptied before the division by `unit_l` can panic.
* C104: a statistics line is written before the checks, so it also stands for runs that fail them (`C104_reported_refuted`), and it lacks `vde_rounds` (`C104_stat_identifies_refuted`). With `should_unseal` off the sealing time is measured and dropped. `should_save_run_data` is not a mere observation: with a zero length it makes a run panic that ends well otherwise (`C104_saving_observes_refuted`). The "success rate" of the proof of space is always 50/50.
* C105: nothing coordinates answering with sealing and unsealing. Blocks can be answered as soon as they are sealed and until unsealing reaches the block before them, but at other moments an honest prover fails the challenge and is not told why (`C105_any_moment_refuted`); unsealing in place therefore ends the time in which challenges can be answered, from the last block on.
* C106: the verifier unseals as many units as the answer contains, without comparing with the parameters, so a prover can make it spend any amount of time on a challenge of one block (`C106_bounded_refuted`). Undoing an iteration is one squaring, against a power with an exponent of the size of the key for doing it; this is the only thing that makes checking cheaper than sealing, the number of evaluations per block is the same.
* C107: a run never checks for room. If the disk holds the padded file but not the public data (about 300 bytes more), the file is sealed to the end, saving panics and the key data that was written cannot be loaded (`C107_early_refuted`); the sealed file is then of no use except for its owner, who knows the fixed key and has the blocks but block 0 (C91).
* C108: nothing locks the files. Two runs with the same sealed path may both report success with both restored files wrong (`C108_shared_refuted`), and two runs with the same public path may leave a file that loads but whose iv is neither's (`C108_pub_mixtures`).
* C109: sealing does not make data incompressible for whoever chooses it. With one round every file of units 1..key-1 is the sealed form of some file (`C109_repetitive`: one unit repeated); through the driver only those that unseal to a file with zero pad bytes are reached (`C109_padded`).
* C111: the space can be traded against time. The answers of the marked space are reproduced exactly with one bit for each slot (1/(n+1) of the space) and 2^n evaluations for each answer, or half the space (k = n/2) and 2^(n/2) evaluations; nothing in the protocol bounds the time of an answer.
* C112: marking reads a byte, changes some bits and writes the byte back, without a lock. Two programs started in the same directory share the file; two runs for the same key that both end well can leave a space in which a marked slot is missing (slot 7 in `C112_lost_refuted`), and a run that answers meanwhile can return a number that does not belong in the slot (`C112_torn_refuted`).
* C113: the check cannot tell a prover that stores the sealed file from one that stores the original and one hash per block and seals again on demand: the answers are the same bytes. Only the time an answer takes could tell, and no code measures it against a limit.
* C114: `batch_unseal_and_verify` and `batch_unseal` do not compare the number of blocks sent with the number asked for: an answer without blocks passes.
* C115: with `parallel_num > 0` the pipeline accepts the original data themselves, never sealed, from a prover that sends no dependencies: the workers panic, the pool swallows the panic, the block comes back as sent and equals the original. The Merkle proof does not help: it is about leaves the verifier already has, not about the blocks sent.
* C116: neither the random byte of a challenge nor the Merkle tree restricts what blocks are accepted: the prover computes the hash itself from the blocks it sends, and the leaves are the verifier's own.
* C117: appending data that take the number of blocks past 256 (or 65536) changes blocks sealed long before, because the number of hash bytes per dependency index changes; all shipped sizes have 256 blocks, so any growth crosses that line.
* C118: updating the data does not force the prover to seal again: the hashes of the blocks before and the dependency blocks are taken from the prover's own message, so stale blocks stay acceptable. Sealing the new data honestly costs all blocks from the first changed one on (C117); passing the checks costs the changed blocks only.
* C119: sealing is not needed at all: hash of the block before and dependency blocks are taken from the prover's message and compared with nothing, so each challenged block can be sealed when asked for, at the price of one block, independently of the others.
* C120: nothing locks the file of the space, and test_pospace fixes its path: a second run started before the first has answered empties the space under it. The first then answers nothing and panics at the verification; with slots that are not whole bytes, stray marks can remain that no run has made (`C120_stray_refuted`).
* C121: nothing locks the file that is being sealed. Two sealing runs that overlap both report success and can leave a file that no order of the two would leave (`C121_serial_refuted`), and two runs that have sealed one file must unseal it in the opposite order, which nothing enforces (`C121_order_refuted`).
* C122: sealing loses files whose masked units become 0 on the way, and nothing reports it, but over all files of units below the key they are at most one in 2^490 with the shipped parameters (`C122_shipped`). The count is over all such files; padded files (top byte zero) are a thin part of them, for which no such bound holds for every hash function.
* C123: the second deterministic rule for short dependencies starts by subtracting 2 from the index of the unit, so a debug build panics on the first row of the table (`C123_mode_2`) where a release build wraps and goes on: files sealed by a release build with this rule cannot be unsealed by a debug build (`C123_converse_refuted`).
* C124: unsealing with a wrong number of delay rounds reports nothing; it gives back other data for nearly all files but not for all (`C124_noticed_refuted`). The parameter vde_mode is never looked at to any effect: both branches call the same function (`C124_name`).
* C125: unsealing with fewer rounds reports nothing; unsealing the remaining rounds afterwards does not give the data (`C125_two_goes_refuted`) because the earlier blocks, on which later ones depend, are no longer sealed. Sealing with the fewer rounds undoes the mistake (`C125_undo`).
* C126: nothing in the code makes sealing change a file; with one round it leaves hardly any file as it is (`C126_all`), but there are such files (`C126_changes_refuted`).
* C127: that replicas under different ivs are different files rests on the hash alone (`C127_exactly`, `C127_collision`, `C127_distinct_refuted`). The theorems are for one round of sealing; for more rounds nothing is proved.

## 6. Testing the theorems against wrong programs

`seeded/LOG.jsonl` has one line per edited model: hand-written bugs (one or more per
property, targeted at that property's theorems) and systematic edits of every model file
(changed constants, comparisons, operators, dropped or exchanged arguments).  An edit counts
as caught when, after replacing failing proofs one by one, a failing lemma is one that the
targeted theorem rests on.  Edits nobody can observe (dead code, equivalent conditions) are
marked "equivalent".  Gaps found this way led to C70-C73, which pin down the exact bytes
written and sent instead of only the round trip.

## 7. Theorems

Third column: the theorems of that row that depend on the primitive-integer axioms of
section 3; all others are closed under the global context.

| id | theorems | uses Int63 axioms |
|----|----------|-------------------|
| C01 | C01_legendre_terminates, C01_fuel_never_exhausted | — |
| C02 | C02_legendre_is_the_symbol | — |
| C03 | C03_sloth_inverse, C03_sloth_surjective, C03_rounds, C03_cycle | — |
| C04 | C04_sloth_at_zero, C04_zero_collides, C04_vde_collides, C04_vde_at_zero | — |
| C05 | C05_vde_round_trip, C05_vde_round_trip_bytes | — |
| C06 | C06_same_forward, C06_same_inverse, C06_chunked_round_trip | — |
| C07 | C07_fast_modpow | — |
| C08 | C08_moduli_partial | C08_moduli_partial |
| C09 | C09_modadd_modsub, C09_modadd_panics_exactly | — |
| C10 | C10_to_units_returns_exactly, C10_com_to, C10_to_com | — |
| C11 | C11_xor_bytes, C11_xor_laws | — |
| C12 | C12_read_file | — |
| C13 | C13_gen_posdata, C13_settings, C13_sizes | — |
| C14 | C14_long_mode_1, C14_long_mode_2, C14_long_mode_3, C14_distances_backward, C14_overflow_debug, C14_overflow_release | — |
| C15 | C15_short_mode_1, C15_short_mode_1_terminates, C15_odd_neighbours, C15_short_mode_1_props | — |
| C16 | C16_debug_panics, C16_debug_one, C16_release | — |
| C17 | C17_long_random_props, C17_long_random_returns | — |
| C18 | C18_short_random_props, C18_short_random_returns, C18_short_random_returns_exactly, C18_six_panic | — |
| C19 | C19_reach, C19_unreachable | — |
| C20 | C20_small, C20_medium | — |
| C21 | C21_compress_pad, C21_compress_pad_identity, C21_padded_units | — |
| C22 | C22_seal_total | — |
| C23 | C23_unseal_seal, C23_shipped | C23_shipped |
| C24 | C24_unseal_seal_plain, C24_round_trip_refuted | — |
| C25 | C25_one_round_exact, C25_padded_no_zero, C25_round_trip_refuted | — |
| C26 | C26_seal_causal | — |
| C27 | C27_seal_interrupted | — |
| C28 | C28_unseal_interrupted, C28_splice_ends, C28_rerun_refuted | — |
| C29 | C29_seal_injective | — |
| C30 | C30_challenges | — |
| C31 | C31_returns_iff, C31_diverges, C31_empty_range | — |
| C32 | C32_aligned, C32_unaligned, C32_all_blocks_refuted, C32_zero_size | — |
| C33 | C33_batch_unseal, C33_range, C33_parallel | — |
| C34 | C34_batch_verify | — |
| C35 | C35_unseal_and_verify, C35_any_rule | — |
| C36 | C36_parallel_eq_sequential, C36_any_rule, C36_no_deadlock, C36_terminates | — |
| C37 | C37_blockwise, C37_any_rule, C37_sequential_panics, C37_panics_iff, C37_panic_reported_refuted | — |
| C38 | C38_batch_unseal_total | — |
| C39 | C39_too_few_blocks, C39_mode_1_exact, C39_verifier_rows, C39_verifier_table, C39_seal_returns_refuted | — |
| C40 | C40_load_save, C40_stale_tail | — |
| C41 | C41_key, C41_iv, C41_total, C41_fits_refuted | — |
| C42 | C42_pipeline, C42_shipped, C42_one_round, C42_seal_and_unseal, C42_single_blocks, C42_merkle_tree_proof | C42_shipped, C42_one_round |
| C43 | C43_response_binds, C43_other_shape_refuted | — |
| C44 | C44_blocks_not_tied, C44_reachable | — |
| C45 | C45_first_leaf_unread, C45_leaves, C45_last_leaf, C45_rest_bound, C45_root_binds_file_refuted, C45_final_check_refuted | — |
| C46 | C46_proofs_verify, C46_root, C46_no_leaves | — |
| C47 | C47_binding, C47_leaf_count_refuted | — |
| C48 | C48_bytes_bits_bytes, C48_bits_bytes_bits, C48_order | — |
| C49 | C49_int_bits_int, C49_bits_int_bits, C49_bit_i, C49_long_panics, C49_long_wraps, C49_zero_width | — |
| C50 | C50_prepare, C50_exact_bits, C50_large_n_panics | — |
| C51 | C51_inverse_table | — |
| C52 | C52_answers | — |
| C53 | C53_too_short, C53_false_answer_refuted | — |
| C54 | C54_any_file | — |
| C55 | C55_mimc3, C55_mimc5, C55_panic_iff, C55_bijection | — |
| C56 | C56_mimc5, C56_mimc3, C56_wrong_constants | — |
| C57 | C57_mimc5_complete, C57_mimc7_complete, C57_mimc5_any_output, C57_mimc7_any_output, C57_no_inputs | — |
| C58 | C58_honest, C58_all_assignments, C58_any_output, C58_bad_bit, C58_wrong_size | — |
| C59 | C59_honest, C59_all_assignments, C59_any_pair, C59_full_width, C59_other_widths, C59_zero_panics, C59_bad_bit | — |
| C60 | C60_complete, C60_wrong_yn, C60_missing_yn, C60_no_responses | — |
| C61 | C61_every_statement, C61_any_x, C61_no_space_needed, C61_soundness_refuted | — |
| C62 | C62_order, C62_positions | — |
| C63 | C63_shape, C63_different_numbers, C63_wrong_constants | — |
| C64 | C64_contract, C64_invalid_accepted_refuted, C64_arity | — |
| C65 | C65_range, C65_every_list, C65_wide_panics | — |
| C66 | C66_fmod_zero, C66_fmod_panics, C66_remainder_refuted | — |
| C67 | C67_unseal_total | — |
| C68 | C68_run, C68_file | — |
| C69 | C69_no_constraints, C69_values, C69_panics, C69_every_statement | — |
| C70 | C70_seal_equations | — |
| C71 | C71_unseal_equations | — |
| C72 | C72_response, C72_range_response | — |
| C73 | C73_reply_equations | — |
| C74 | C74_forged_accepted | — |
| C75 | C75_determined, C75_stored_only, C75_not_determined_refuted | — |
| C76 | C76_compare, C76_truncated_refuted | — |
| C77 | C77_verdict, C77_primes_accepted, C77_exact_below, C77_error_bound, C77_composite_refuted | — |
| C78 | C78_modulus, C78_terminates | — |
| C79 | C79_modpow, C79_overflow, C79_wrong_refuted | — |
| C80 | C80_single, C80_leaves, C80_forgets, C80_missing, C80_shipped, C80_unseal_single_refuted, C80_stale_leaves_refuted | C80_shipped, C80_unseal_single_refuted, C80_stale_leaves_refuted |
| C81 | C81_restores, C81_challenge, C81_all_blocks, C81_single, C81_run, C81_shipped | — |
| C82 | C82_first_damage, C82_sealed_reduced, C82_caught, C82_replica, C82_pad_bytes_unchecked, C82_accepted_is_honest_refuted | — |
| C83 | C83_uniform, C83_share, C83_enough, C83_more, C83_unfinished, C83_ends, C83_always_enough_refuted | — |
| C84 | C84_accepted, C84_bound, C84_run, C84_half, C84_shipped | — |
| C85 | C85_hash5, C85_hash7, C85_panics, C85_permutation, C85_multi, C85_extension, C85_binding_refuted, C85_delay_preimages | — |
| C86 | C86_single, C86_shift, C86_reuse, C86_few_missing | — |
| C87 | C87_local, C87_few, C87_restored, C87_damage, C87_earlier, C87_challenge, C87_iv, C87_iv_one_round | — |
| C88 | C88_ends, C88_new_file, C88_overwrite, C88_loss, C88_crash_safe_refuted | — |
| C89 | C89_decides, C89_any_leaves, C89_passes, C89_first_block_free, C89_driver | — |
| C90 | C90_states, C90_driver | — |
| C91 | C91_killed_sealing, C91_killed_unsealing, C91_again, C91_idempotent_refuted | — |
| C92 | C92_uniform, C92_file, C92_space, C92_bound, C92_small_space, C92_run, C92_half | — |
| C93 | C93_block, C93_safe_blocks, C93_one_round, C93_lost, C93_challenges, C93_pipeline, C93_ends_well | — |
| C94 | C94_reads, C94_surplus, C94_unique, C94_size, C94_response, C94_no_index, C94_empty_challenge | — |
| C95 | C95_block, C95_resume, C95_prefix, C95_first_change, C95_evaluations | — |
| C96 | C96_filled, C96_shipped, C96_loss | — |
| C97 | C97_complete, C97_copies, C97_seal, C97_seal_own, C97_restored, C97_unseal, C97_whole, C97_noticed_refuted | — |
| C98 | C98_seal, C98_unseal, C98_copies, C98_response, C98_verify, C98_tree, C98_wraps, C98_outside_refuted, C98_range, C98_range_wraps, C98_shipped | — |
| C99 | C99_prepare, C99_prepare_again, C99_over, C99_states, C99_answers, C99_whole, C99_again, C99_torn_refuted, C99_unprepared_refuted, C99_stale, C99_other_key_refuted | — |
| C100 | C100_complete, C100_response, C100_range, C100_verify, C100_fused, C100_tree, C100_tree_proof, C100_challenge, C100_verifier_short, C100_schedule, C100_noticed_refuted, C100_tree_refuted | — |
| C101 | C101_seal, C101_unseal, C101_killed, C101_readers, C101_verifier, C101_length, C101_short, C101_unseal_total, C101_round_trip, C101_origin, C101_restored, C101_spot, C101_noticed_refuted | — |
| C102 | C102_unseal, C102_restored, C102_copies, C102_challenge, C102_one_round, C102_seal, C102_iv_needed_refuted | — |
| C103 | C103_result, C103_apart, C103_frame, C103_missing, C103_sealed_is_origin, C103_unsealed_is_sealed, C103_pub_is_origin, C103_pub_is_sealed, C103_succeeds, C103_unsealed_over, C103_check_self, C103_copies, C103_check, C103_load, C103_copy_self, C103_seal, C103_any_paths_refuted | — |
| C104 | C104_unsaved, C104_saved, C104_zero_length, C104_saving_observes_refuted, C104_history, C104_stat_fields, C104_head_fields, C104_stat_identifies_refuted, C104_reported_refuted, C104_pipeline, C104_progress, C104_passed, C104_readable, C104_times_table, C104_stat_table, C104_head_table, C104_space_sample, C104_space_text, C104_space_run | — |
| C105 | C105_answer, C105_range, C105_challenge, C105_response, C105_decides, C105_any_moment_refuted | — |
| C106 | C106_same, C106_delay, C106_modpow, C106_modpow_exact, C106_root_cost, C106_legendre, C106_legendre_calls, C106_seal, C106_unseal, C106_check, C106_check_threads, C106_bounded_refuted, C106_undo, C106_undo_blocks | — |
| C107 | C107_pad, C107_compress, C107_refused, C107_save, C107_seal, C107_unseal, C107_run, C107_needs, C107_again, C107_like_killed, C107_early_refuted | — |
| C108 | C108_alone, C108_ends, C108_any, C108_part, C108_apart, C108_contents, C108_pub_shared, C108_pub_mixtures, C108_shared_refuted | — |
| C109 | C109_masks, C109_image, C109_reseal, C109_one_round, C109_repetitive, C109_layers, C109_padded, C109_any_file_refuted, C109_order_refuted | — |
| C110 | C110_prepare, C110_mark, C110_counts, C110_answer, C110_room | — |
| C111 | C111_thrifty, C111_nothing, C111_search_count, C111_counted | — |
| C112 | C112_alone, C112_side, C112_unmapped, C112_whole, C112_again, C112_askers, C112_lost_refuted, C112_torn_refuted | — |
| C113 | C113_reseal, C113_lost, C113_answers, C113_bare, C113_any_order_refuted | — |
| C114 | C114_collect, C114_gather, C114_whole, C114_chance, C114_unanswered_refuted | — |
| C115 | C115_bare, C115_sequential, C115_judge, C115_challenge, C115_accepts, C115_collect | — |
| C116 | C116_sequential, C116_parallel, C116_verdict, C116_replay, C116_other_tree | — |
| C117 | C117_from, C117_kept, C117_update, C117_boundary_refuted, C117_later_refuted | — |
| C118 | C118_blockwise, C118_local, C118_update, C118_sealed_again_refuted | — |
| C119 | C119_demand, C119_each, C119_must_seal_refuted, C119_shipped | — |
| C120 | C120_alone, C120_side, C120_whole, C120_wiped, C120_spoiled, C120_stray_refuted | — |
| C121 | C121_side, C121_nested, C121_serial_refuted, C121_order_refuted | — |
| C122 | C122_all, C122_rare, C122_lost, C122_some, C122_hit, C122_shipped | — |
| C123 | C123_storage, C123_pipeline, C123_space, C123_circuit, C123_same, C123_space_same, C123_mode_2, C123_converse_refuted | — |
| C124 | C124_fixed, C124_differ, C124_back, C124_exactly, C124_few, C124_hardly, C124_name, C124_noticed_refuted | — |
| C125 | C125_fewer, C125_undo, C125_none, C125_two_goes_refuted | — |
| C126 | C126_rare, C126_all, C126_changes_refuted | — |
| C127 | C127_exactly, C127_same, C127_collision, C127_distinct_refuted | — |
