{"id": "C01", "title": "legendre terminates", "statement": "The recursive quadratic-residue test legendre(x, p) returns for every pair of integers x and p: neither the halving loop nor the recursion can run forever.", "quantifier": "all integers x, p (positive, negative, zero, any size)", "why_tests_cant": "non-termination on one unlucky pair is invisible to sampling; the recursion depth is data dependent", "anchors": ["proof_of_storage/src/vde/rug_sloth.rs:legendre", "proof_of_storage/src/vde/sloth.rs:legendre"]}
{"id": "C02", "title": "legendre computes the Legendre symbol", "statement": "For every odd prime p and every non-negative x, legendre(x, p) is 1 if x is a non-zero square modulo p, -1 if x is not a square modulo p, and 0 if p divides x (correctness rests on quadratic reciprocity because the recursion passes through composite moduli).", "quantifier": "all odd primes p, all x >= 0", "why_tests_cant": "512..2048-bit domain; reciprocity sign errors only show in particular residue classes of both arguments", "anchors": ["proof_of_storage/src/vde/rug_sloth.rs:legendre"]}
{"id": "C03", "title": "sloth is invertible", "statement": "For every prime p = 3 mod 4, every number of rounds t and every x in [1, p-1], sloth_inv(sloth(x, p, t), p, t) = x, sloth stays inside [1, p-1], and sloth(sloth_inv(y)) = y for y in [1, p-1]: each round is a permutation of [1, p-1]. s + t rounds are s rounds followed by t, and every input comes back to itself after at most p - 1 rounds.", "quantifier": "all primes p = 3 mod 4, all t, all x in [1,p-1]", "why_tests_cant": "2^512 inputs; the sign/parity case analysis has four branches per round", "anchors": ["proof_of_storage/src/vde/rug_sloth.rs:single_sloth", "proof_of_storage/src/vde/rug_sloth.rs:sloth", "proof_of_storage/src/vde/rug_sloth.rs:single_sloth_inv", "proof_of_storage/src/vde/rug_sloth.rs:sloth_inv"]}
{"id": "C04", "title": "sloth at zero", "statement": "What happens to the one remaining residue, x = 0: for every prime p = 3 mod 4 with p >= 7, one round gives -1, outside the range [0, p-1]; two and more rounds give the same value in [1, p-1] as the input p - 4; and for every t >= 1 the inverse does not give 0 back (expected round trip is violated at 0: it returns 4 when t = 1 and p - 4 when t >= 2). Through the byte interface, which drops the sign, the zero unit and the unit encoding 4 (t = 1) or p - 4 (t >= 2) have the same image.", "quantifier": "all primes p = 3 mod 4 (p>=7), all t >= 1", "why_tests_cant": "one input among 2^512: random tests will never hit it", "anchors": ["proof_of_storage/src/vde/rug_sloth.rs:single_sloth", "proof_of_storage/src/vde/rug_sloth.rs:single_sloth_inv"]}
{"id": "C05", "title": "vde / vde_inv byte round trip", "statement": "For every byte string x with 0 < value(x) < p and p < 256^l, vde(x, p, t, mode, l) has exactly l bytes and vde_inv of it returns l bytes encoding the same value (equal to x when x has l bytes); the mode string is irrelevant.", "quantifier": "all byte strings, keys, rounds, modes, lengths l", "why_tests_cant": "every input and every leading-zero pattern of the output", "anchors": ["proof_of_storage/src/vde/rug_vde.rs:vde", "proof_of_storage/src/vde/rug_vde.rs:vde_inv"]}
{"id": "C06", "title": "the two sloth implementations agree", "statement": "The num-bigint implementation (vde/sloth.rs) and the rug implementation (vde/rug_sloth.rs) compute the same forward values on all integers 0 <= x < p, and the same inverse on all y with 0 <= y < p, for every odd prime p; and the num-bigint chunked vde/vde_inv round-trips every multi-chunk input whose chunks are non-zero residues.", "quantifier": "all odd primes, inputs, rounds", "why_tests_cant": "equality of two programs over an unbounded domain", "anchors": ["proof_of_storage/src/vde/sloth.rs:single_sloth", "proof_of_storage/src/vde/sloth.rs:sloth_inv", "proof_of_storage/src/vde/numbig_vde.rs:vde", "proof_of_storage/src/vde/numbig_vde.rs:vde_inv"]}
{"id": "C07", "title": "fast_modpow is modular exponentiation", "statement": "fast_modpow(x, t, p) = x^t mod p for all x >= 0, t >= 0 and p > 1, and it terminates.", "quantifier": "all x, t >= 0, p > 1", "why_tests_cant": "unbounded integers", "anchors": ["proof_of_storage/src/vde/compare_modpow.rs:fast_modpow"]}
{"id": "C08", "title": "the built-in VDE moduli are usable", "statement": "Each built-in modulus P_64..P_2048 is congruent to 3 modulo 4, has exactly the advertised bit length (so it fits the unit and exceeds every padded unit), and is prime.", "quantifier": "the six constants, against all potential divisors", "why_tests_cant": "primality quantifies over all divisors; a probabilistic test is not a proof", "anchors": ["proof_of_storage/src/vde/rug_sloth.rs:P_64", "proof_of_storage/src/vde/rug_sloth.rs:P_512", "proof_of_storage/src/vde/rug_sloth.rs:P_2048", "proof_of_storage/src/proof_of_storage/postorage.rs:prepare_params"]}
{"id": "C09", "title": "modsub inverts modadd", "statement": "For every unit u with value below the modulus p, every mask h with value below p, and p <= 256^len(u): modadd(u,h,p) and modsub succeed, keep the length of u, and modsub(modadd(u,h,p),h,p) = u. modadd panics exactly when the reduced sum needs more bytes than u has.", "quantifier": "all byte strings u, h and moduli p", "why_tests_cant": "carry/wrap-around cases depend on big values near p", "anchors": ["proof_of_storage/src/proof_of_storage/common.rs:modadd", "proof_of_storage/src/proof_of_storage/common.rs:modsub"]}
{"id": "C10", "title": "to_units / com_units", "statement": "to_units(data, len) succeeds exactly when len > 0 and len divides data.len() (or data is empty); then every unit has len bytes and com_units(to_units(data, len)) = data; conversely to_units(com_units(us), len) = us when all units have length len > 0.", "quantifier": "all byte strings and lengths", "why_tests_cant": "all lengths including non-multiples and zero", "anchors": ["proof_of_storage/src/proof_of_storage/common.rs:to_units", "proof_of_storage/src/proof_of_storage/common.rs:com_units"]}
{"id": "C11", "title": "vecu8_xor", "statement": "vecu8_xor(a,b) has length max(|a|,|b|), is commutative and associative, has [] as neutral element, and xor-ing twice with b gives a back padded with zeros to the longer length.", "quantifier": "all pairs/triples of byte strings", "why_tests_cant": "all length combinations", "anchors": ["proof_of_storage/src/proof_of_storage/common.rs:vecu8_xor"]}
{"id": "C12", "title": "read_file contract", "statement": "read_file(f, begin, len) always returns exactly len bytes: byte k is the file's byte begin+k when that exists and 0 otherwise; the file is not changed.", "quantifier": "all files, offsets and lengths", "why_tests_cant": "offsets at and past end-of-file", "anchors": ["proof_of_storage/src/proof_of_storage/common.rs:read_file"]}
{"id": "C13", "title": "gen_posdata parameter geometry", "statement": "For every argument l, the parameter set returned by gen_posdata is self-consistent: units divide blocks, blocks divide the data, padded and unpadded geometry have the same unit and block counts, there are 256 blocks, and one pad byte per unit. Every set asks for two sealing rounds, ten rounds of the sloth delay function, dependency mode 0 with the default number of block dependencies and ten unit dependencies, and three sampled leaves; only the data length (63*16*1024 bytes times 1, 4, 16, or 64 for every other l) and the block length differ.", "quantifier": "all l", "why_tests_cant": "the fall-through case covers infinitely many l", "anchors": ["proof_of_storage/src/proof_of_storage/common.rs:gen_posdata"]}
{"id": "C14", "title": "deterministic long dependencies", "statement": "long_mode_1/2/3(index, ...) return exactly the documented distances (index-1-2i, resp. index-1-2^i) that do not go below zero, so every dependency is strictly smaller than index and there are no duplicates; an arithmetic-overflow panic (debug) happens exactly when an exponent of 64 or more is reached.", "quantifier": "all indices, counts, both build profiles", "why_tests_cant": "index and count are unbounded; the overflow needs index >= 650", "anchors": ["proof_of_storage/src/proof_of_storage/depend.rs:long_mode_1", "proof_of_storage/src/proof_of_storage/depend.rs:long_mode_2", "proof_of_storage/src/proof_of_storage/depend.rs:long_mode_3", "proof_of_storage/src/proof_of_storage/depend.rs:long_depend"]}
{"id": "C15", "title": "short_mode_1", "statement": "short_mode_1(num, index, count) terminates; its result contains only indices below num that differ from index, without duplicates, nearest odd distances first with left before right, and has length min(count, number of available odd-distance neighbours).", "quantifier": "all num, index < num, count", "why_tests_cant": "a while-style loop over unbounded inputs", "anchors": ["proof_of_storage/src/proof_of_storage/depend.rs:short_mode_1"]}
{"id": "C16", "title": "short_mode_2", "statement": "With overflow checks on (debug), short_mode_2 panics for every call with count >= 2 (and for count = 1 when index < 2); with wrapping arithmetic (release) it returns the longest prefix of the documented sequence index-2, index+1, index-5, index+7, ... that stays within [0,num).", "quantifier": "all num, index, count <= 63, both build profiles", "why_tests_cant": "overflow behaviour differs between profiles", "anchors": ["proof_of_storage/src/proof_of_storage/depend.rs:short_mode_2"]}
{"id": "C17", "title": "random long dependencies are sorted, distinct and backward", "statement": "When long_mode_random returns, the result is strictly increasing, every element is smaller than index, and there are at most count of them; it returns for every input except when num > 65536 and count >= 6 (with index > 0), where it always panics with an out-of-bounds access.", "quantifier": "all hash functions, data, num, index, count", "why_tests_cant": "result depends on a hash; panics only in a size regime tests do not use", "anchors": ["proof_of_storage/src/proof_of_storage/depend.rs:long_mode_random"]}
{"id": "C18", "title": "random short dependencies exclude the unit itself", "statement": "When short_depend_random returns, the result is strictly increasing, every element is below num and different from index, and there are at most count of them; for 0 < num <= 65536 it always returns, for num = 0 it returns only when count = 0, and for num > 65536 only when count is at most the number of the first five candidates that differ from index, so with count >= 6 it always panics.", "quantifier": "all hash functions, data, num, index, count", "why_tests_cant": "self-dependency would make a unit impossible to unseal, for some hash value only", "anchors": ["proof_of_storage/src/proof_of_storage/depend.rs:short_depend_random"]}
{"id": "C19", "title": "reach of random dependencies", "statement": "Which units can be chosen: for 256 < num <= 65536 every index chosen by short_depend_random is v mod num for some 256 <= v <= 766 (so for num > 766 units 0..255 and 767..num-1 are never chosen), and for num > 65536 it is v mod num with 768 <= v <= 1533, whatever the hash function and data: the selection does not cover the block.", "quantifier": "all hash functions, data, num > 256, index, count", "why_tests_cant": "a negative reachability claim over all hash outputs", "anchors": ["proof_of_storage/src/proof_of_storage/depend.rs:short_depend_random", "proof_of_storage/src/proof_of_storage/depend.rs:long_mode_random"]}
{"id": "C20", "title": "number of random dependencies", "statement": "For num <= 256 the candidate stream is long enough for any count (short of duplicates and self-hits count many are drawn by long_mode_random), but for 256 < num <= 65536 and 8 < count < 32 at most 8 dependencies are ever returned, whatever the hash and data.", "quantifier": "all hash functions, data, num, index, count", "why_tests_cant": "upper bound over all hash outputs", "anchors": ["proof_of_storage/src/proof_of_storage/depend.rs:long_mode_random", "proof_of_storage/src/proof_of_storage/depend.rs:short_depend_random"]}
{"id": "C21", "title": "padding and compressing are inverse", "statement": "copy_and_compress applied to the output of copy_and_pad reproduces the first floor(data_l/unit_l)*unit_l bytes of the original file (zero-extended if the file is shorter); in particular it is the identity on a file of data_l bytes when unit_l divides data_l, and every padded unit ends in a 0 byte.", "quantifier": "all files, data_l, unit_l > 0", "why_tests_cant": "all sizes, including non-multiples where the tail is dropped", "anchors": ["proof_of_storage/src/proof_of_storage/prover.rs:copy_and_pad", "proof_of_storage/src/proof_of_storage/prover.rs:copy_and_compress"]}
{"id": "C22", "title": "seal never panics and keeps the geometry", "statement": "For every well-formed parameter set, key, iv and file of block_cnt*block_pl bytes (random dependency modes), seal completes without panic, returns block_cnt block ids, leaves the file length unchanged, every sealed unit encodes a number below the key, and each returned id is the hash of the corresponding sealed block in the file.", "quantifier": "all files, keys, ivs, hash functions, well-formed parameters", "why_tests_cant": "index arithmetic over all sizes and all hash values", "anchors": ["proof_of_storage/src/proof_of_storage/prover.rs:seal"]}
{"id": "C23", "title": "unseal inverts seal", "statement": "For every well-formed parameter set with random long dependencies, every prime key = 3 mod 4, iv and every padded file, unseal applied to the output of seal restores the file exactly, unless some masked unit hit residue 0 during sealing.", "quantifier": "all files, keys, ivs, hash functions, rounds, parameters (mode_l = 0)", "why_tests_cant": "the central guarantee; depends on in-place update order across units, rounds and blocks", "anchors": ["proof_of_storage/src/proof_of_storage/prover.rs:seal", "proof_of_storage/src/proof_of_storage/prover.rs:unseal"]}
{"id": "C24", "title": "unseal with deterministic long dependencies", "statement": "unseal of a file sealed with mode_l = 1, 2 or 3: the round trip is NOT guaranteed (unseal reads block i instead of block idxs_l[idx2][i]); it is restored exactly whenever each block's dependency list happens to be 0,1,...,k-1, and there are parameters and files for which the data is corrupted.", "quantifier": "all parameter sets with mode_l != 0", "why_tests_cant": "wrong data only for particular dependency lists", "anchors": ["proof_of_storage/src/proof_of_storage/prover.rs:unseal", "proof_of_storage/src/proof_of_storage/prover.rs:seal"]}
{"id": "C25", "title": "a zero residue corrupts the unit", "statement": "If a masked unit is congruent to 0 modulo the key in some sealing round, unsealing does not restore the data: there are files, hash functions and parameters for which unseal(seal(f)) differs from f. With one sealing round and padded data this needs an all-zero hash, so it cannot happen for a hash function that never returns 32 zero bytes.", "quantifier": "exists / all, over hash functions and files", "why_tests_cant": "needs a hash preimage; unreachable by testing", "anchors": ["proof_of_storage/src/proof_of_storage/prover.rs:seal", "proof_of_storage/src/proof_of_storage/common.rs:modadd", "proof_of_storage/src/vde/rug_sloth.rs:single_sloth"]}
{"id": "C26", "title": "sealing is causal", "statement": "The first k sealed blocks are a function of the first k plaintext blocks only: two files that agree on the first k blocks have sealed files that agree on the first k blocks (same parameters, key and iv).", "quantifier": "all pairs of files, all k", "why_tests_cant": "relational property over pairs of inputs", "anchors": ["proof_of_storage/src/proof_of_storage/prover.rs:seal"]}
{"id": "C27", "title": "interrupted seal", "statement": "If seal is interrupted after j blocks, the file consists of the first j blocks of the completed sealed file followed by the untouched plaintext blocks.", "quantifier": "all files, parameters, interruption points j", "why_tests_cant": "crash points cannot be enumerated by tests", "anchors": ["proof_of_storage/src/proof_of_storage/prover.rs:seal"]}
{"id": "C28", "title": "interrupted unseal", "statement": "If unseal is interrupted after j blocks, the file is the sealed prefix followed by the last j plaintext blocks, and continuing the loop from there restores the file; rerunning unseal from the start on such a file is not guaranteed to restore it.", "quantifier": "all files, parameters, interruption points j", "why_tests_cant": "crash points cannot be enumerated by tests", "anchors": ["proof_of_storage/src/proof_of_storage/prover.rs:unseal"]}
{"id": "C29", "title": "sealing is injective", "statement": "Two padded files whose sealing hit no zero residue and that have equal sealed files (same key, iv, parameters) are equal: distinct data cannot share one sealed representation.", "quantifier": "all pairs of files", "why_tests_cant": "relational property over pairs of inputs", "anchors": ["proof_of_storage/src/proof_of_storage/prover.rs:seal"]}
{"id": "C30", "title": "storage challenges", "statement": "When create_challenges(n, (a,b)) returns, the result is strictly increasing, has exactly n elements, all in [a, b), whatever the random source produces.", "quantifier": "all n, ranges and random streams", "why_tests_cant": "all random streams", "anchors": ["proof_of_storage/src/proof_of_storage/verifier.rs:create_challenges"]}
{"id": "C31", "title": "storage challenges may diverge", "statement": "create_challenges(n, (a,b)) never returns if n > b - a (more challenges than blocks), for every random source (it panics instead if the range is empty and n > 0); if n <= b - a it returns as soon as the random stream has produced n distinct values.", "quantifier": "all random streams", "why_tests_cant": "non-termination cannot be observed by a test", "anchors": ["proof_of_storage/src/proof_of_storage/verifier.rs:create_challenges"]}
{"id": "C32", "title": "batch_unseal_prepare block selection", "statement": "For a block-aligned begin offset the selected block numbers are exactly the blocks intersecting the byte range [begin, end), each once and in order; for an unaligned begin the selection can miss the last intersecting block.", "quantifier": "all ranges and block sizes", "why_tests_cant": "all offsets", "anchors": ["proof_of_storage/src/proof_of_storage/verifier.rs:batch_unseal_prepare"]}
{"id": "C33", "title": "challenged blocks unseal to the original data", "statement": "For every sealed file produced by seal (any long-dependency mode, no zero residue), every list of block indices (any order, repetitions allowed): single_unseal_prepare followed by batch_unseal returns exactly the padded plaintext units of those blocks.", "quantifier": "all files, keys, parameters, lists of block indices", "why_tests_cant": "random access must agree with the in-place sequential sealing for every subset of blocks", "anchors": ["proof_of_storage/src/proof_of_storage/verifier.rs:single_unseal_prepare", "proof_of_storage/src/proof_of_storage/verifier.rs:batch_unseal_prepare", "proof_of_storage/src/proof_of_storage/verifier.rs:batch_unseal"]}
{"id": "C34", "title": "batch_verify acceptance", "statement": "batch_verify returns normally exactly when every unit of the original block has a counterpart in the unsealed block whose first unit_l bytes equal it; pad bytes and surplus units are not examined.", "quantifier": "all files, block indices and candidate blocks", "why_tests_cant": "exact acceptance set over all candidate inputs", "anchors": ["proof_of_storage/src/proof_of_storage/verifier.rs:batch_verify"]}
{"id": "C35", "title": "batch_unseal_and_verify", "statement": "batch_unseal_and_verify succeeds exactly when batch_unseal followed by batch_verify on every block succeeds: for the random unit rule on all inputs, for the deterministic rules on blocks of the right size with every setting that can be sealed, although the two functions build their tables for different lengths.", "quantifier": "all inputs", "why_tests_cant": "equivalence of two code paths over all inputs", "anchors": ["proof_of_storage/src/proof_of_storage/verifier.rs:batch_unseal_and_verify", "proof_of_storage/src/proof_of_storage/verifier.rs:batch_unseal", "proof_of_storage/src/proof_of_storage/verifier.rs:batch_verify"]}
{"id": "C36", "title": "parallel unsealing equals sequential unsealing", "statement": "For every number of worker threads and every interleaving of the workers' lock operations, when no worker panics the result of batch_unseal_parallel is the result of batch_unseal on the same inputs (for the random unit rule on all inputs, for the deterministic ones on blocks of the right size with every setting that can be sealed).", "quantifier": "all schedules, all inputs", "why_tests_cant": "schedules cannot be enumerated by tests", "anchors": ["proof_of_storage/src/proof_of_storage/verifier.rs:batch_unseal_parallel", "proof_of_storage/src/proof_of_storage/verifier.rs:batch_unseal"]}
{"id": "C37", "title": "a panicking worker is silent", "statement": "If a worker of batch_unseal_parallel panics, the call still returns normally and the corresponding result block is the still-sealed input block, for every schedule; the sequential version would panic.", "quantifier": "all schedules, all inputs with a panicking block", "why_tests_cant": "schedules; panic swallowed by the pool", "anchors": ["proof_of_storage/src/proof_of_storage/verifier.rs:batch_unseal_parallel"]}
{"id": "C38", "title": "the verifier survives arbitrary responses", "statement": "batch_unseal never panics on any well-shaped response, honest or not: for arbitrary block contents, previous-block ids and dependency blocks of the right shape it returns blocks of the same shape.", "quantifier": "all adversarial responses of the right shape", "why_tests_cant": "adversarial inputs", "anchors": ["proof_of_storage/src/proof_of_storage/verifier.rs:batch_unseal"]}
{"id": "C39", "title": "short-dependency table size", "statement": "With deterministic short dependencies (mode_s = 1) sealing builds its table for the number of blocks instead of the number of units: sealing panics for some parameter sets with more units than blocks, the verifier's batch_unseal uses a different table size, and both agree (and round-trip) whenever the block count equals the unit count.", "quantifier": "all parameter sets with mode_s = 1", "why_tests_cant": "parameter regimes not covered by tests", "anchors": ["proof_of_storage/src/proof_of_storage/prover.rs:seal", "proof_of_storage/src/proof_of_storage/verifier.rs:batch_unseal", "proof_of_storage/src/proof_of_storage/prover.rs:create_short_depend"]}
{"id": "C40", "title": "public data survives a save/load", "statement": "load_data after save_data(key, iv) returns (key, iv), for every integer key and every iv, whatever the target file contained before (the file is not truncated).", "quantifier": "all keys, ivs and previous file contents", "why_tests_cant": "stale longer files; all sizes", "anchors": ["proof_of_storage/src/proof_of_storage/postorage.rs:save_data", "proof_of_storage/src/proof_of_storage/postorage.rs:load_data"]}
{"id": "C41", "title": "prepare_params key selection", "statement": "prepare_params(unit_pl) returns a key that fits in unit_pl bytes and exceeds every (unit_pl-1)-byte number for unit_pl = 64, 128, 256; for every other unit_pl it returns the 1024-bit key, which does not fit when unit_pl < 128; the iv always has 128 bytes.", "quantifier": "all unit_pl, all random streams", "why_tests_cant": "all unit_pl", "anchors": ["proof_of_storage/src/proof_of_storage/postorage.rs:prepare_params"]}
{"id": "C42", "title": "an honest pipeline run passes every check", "statement": "For every original file of data_l bytes, iv, random byte and challenge list, with random block dependencies: pad, seal, challenge, respond, verify hash, verify Merkle path, unseal challenged blocks, compare with original, complete unseal, compare Merkle roots: all assertions hold (no zero residue hit).", "quantifier": "all files, challenges, random bytes, hash functions", "why_tests_cant": "end-to-end composition over all inputs", "anchors": ["proof_of_storage/src/proof_of_storage/postorage.rs:test_pipeline", "proof_of_storage/src/proof_of_storage/postorage.rs:seal_and_unseal"]}
{"id": "C43", "title": "the response hash binds the blocks", "statement": "If two responses of the same shape to the same challenge byte have the same response hash, they contain the same blocks or exhibit a collision of the hash function.", "quantifier": "all pairs of responses", "why_tests_cant": "cryptographic binding is universal over adversaries", "anchors": ["proof_of_storage/src/proof_of_storage/postorage.rs:test_pipeline"]}
{"id": "C44", "title": "the sealed-tree check is not tied to the response blocks", "statement": "The outcome of the pipeline's Merkle-path check does not depend on the blocks the prover sent: replacing the response blocks leaves its result unchanged.", "quantifier": "all responses", "why_tests_cant": "relational claim over all responses", "anchors": ["proof_of_storage/src/proof_of_storage/postorage.rs:test_pipeline", "proof_of_storage/src/proof_of_storage/merkle_tree.rs:verify_merkle_proof"]}
{"id": "C45", "title": "what a file's Merkle tree covers", "statement": "generate_merkle_tree_from_file hashes the leaves starting at offset leaf_len: the root does not depend on the first leaf_len bytes of the file, and its last leaf is read past data_len (zeros when the file ends there). Two files differing only in the first leaf have the same root.", "quantifier": "all files, lengths", "why_tests_cant": "needs relational reasoning over pairs of files", "anchors": ["proof_of_storage/src/proof_of_storage/merkle_tree.rs:generate_merkle_tree_from_file"]}
{"id": "C46", "title": "Merkle proofs of an honest tree verify", "statement": "For every non-empty list of leaf values and every strictly increasing list of valid indices, the proof generated from the tree verifies against its root and the original leaves.", "quantifier": "all leaf lists, index lists, hash functions", "why_tests_cant": "all tree sizes (non powers of two) and index subsets", "anchors": ["proof_of_storage/src/proof_of_storage/merkle_tree.rs:generate_merkle_tree_from_data", "proof_of_storage/src/proof_of_storage/merkle_tree.rs:generate_merkle_proof", "proof_of_storage/src/proof_of_storage/merkle_tree.rs:verify_merkle_proof"]}
{"id": "C47", "title": "a verifying Merkle proof binds the leaves", "statement": "If a proof verifies against the root of a tree for claimed leaves that differ from the real ones at some proved index, then it exhibits a collision of the node hash.", "quantifier": "all trees, proofs, index sets, claimed leaves", "why_tests_cant": "universal over adversarial proofs", "anchors": ["proof_of_storage/src/proof_of_storage/merkle_tree.rs:verify_merkle_proof"]}
{"id": "C48", "title": "bytes/bits conversion", "statement": "bytes_to_bits and bits_to_bytes are inverse: bits_to_bytes(bytes_to_bits(x)) = x for all x, and bytes_to_bits(bits_to_bytes(b)) is b padded with false to a multiple of 8.", "quantifier": "all byte and bit strings", "why_tests_cant": "all lengths", "anchors": ["proof_of_space/src/proof_of_space/convert.rs:bytes_to_bits", "proof_of_space/src/proof_of_space/convert.rs:bits_to_bytes"]}
{"id": "C49", "title": "integer/bits conversion", "statement": "bits_to_usize(usize_to_bits(x, n)) = x mod 2^n for 1 <= n <= 63 and usize_to_bits(bits_to_usize(b), |b|) = b for |b| <= 63; with overflow checks bits_to_usize panics on every input of 64 or more bits, and usize_to_bits(x, 0) panics exactly when x is odd.", "quantifier": "all x < 2^64, all n, all bit strings, both profiles", "why_tests_cant": "64-bit boundary", "anchors": ["proof_of_space/src/proof_of_space/convert.rs:bits_to_usize", "proof_of_space/src/proof_of_space/convert.rs:usize_to_bits"]}
{"id": "C50", "title": "prepare_space size", "statement": "prepare_space(path, n) leaves a file of exactly floor((n+1)*2^n/8) zero bytes whatever it contained before; for n >= 3 this is exactly (n+1)*2^n bits. This is for n <= 58; with overflow checks it panics for every larger n.", "quantifier": "all n, all previous contents", "why_tests_cant": "all n", "anchors": ["proof_of_space/src/proof_of_space/prover.rs:prepare_space"]}
{"id": "C51", "title": "marking the space builds the inverse table", "statement": "After prepare_space and mark_space with n >= 3, slot yn of the bit-packed file contains flag true and x, the largest x < 2^n whose delay function value has yn as its low n bits, or flag false if there is none; the file length is unchanged.", "quantifier": "all delay functions, all n >= 3, all slots", "why_tests_cant": "bit-level read-modify-write across byte boundaries for every slot offset and every overwrite order", "anchors": ["proof_of_space/src/proof_of_space/prover.rs:mark_space", "proof_of_space/src/proof_of_space/prover.rs:prepare_space"]}
{"id": "C52", "title": "responses answer their challenges", "statement": "After honest preparation with n >= 3, every x returned by response_1 for challenge yn < 2^n satisfies low_n(df(x + key, m)) = yn, and a challenge is skipped only if no x < 2^n has that property (or 50 answers were already given).", "quantifier": "all challenges, keys, delay functions", "why_tests_cant": "all challenge lists", "anchors": ["proof_of_space/src/proof_of_space/prover.rs:response_1", "proof_of_space/src/proof_of_space/prover.rs:mark_space"]}
{"id": "C53", "title": "spaces with n < 3", "statement": "For n = 2 the prepared file is too short for its slots and marking can create a slot that claims an answer although no x maps to it.", "quantifier": "exists, over delay functions", "why_tests_cant": "corner case of the public parameter n", "anchors": ["proof_of_space/src/proof_of_space/prover.rs:prepare_space", "proof_of_space/src/proof_of_space/prover.rs:mark_space", "proof_of_space/src/proof_of_space/prover.rs:response_1"]}
{"id": "C54", "title": "response_1 answers at most 50 challenges in order", "statement": "response_1 returns as many x as indices, at most 50, indices strictly increasing and valid, and they are the first answerable challenges of the list; it does not modify the file.", "quantifier": "all files (honest or not), challenge lists", "why_tests_cant": "all files", "anchors": ["proof_of_space/src/proof_of_space/prover.rs:response_1"]}
{"id": "C55", "title": "MiMC Feistel round functions", "statement": "mimc3_df / mimc5_df return exactly the left half of the iterated Feistel map (l,r) -> (r + (l+c_i)^e, l) with e = 3, 5, and panic exactly when the number of constants differs from the round count; the underlying Feistel iteration is a bijection of pairs.", "quantifier": "all rings, inputs, constants", "why_tests_cant": "all field elements", "anchors": ["proof_of_space/src/mimc/mimc_df.rs:mimc3_df", "proof_of_space/src/mimc/mimc_df.rs:mimc5_df"]}
{"id": "C56", "title": "MiMC delay-function circuits are sound and complete", "statement": "An assignment satisfies the MiMC3/MiMC5 delay-function constraints exactly when the public output equals the native function applied to the two private inputs and the intermediate wires have their honest values; the honest assignment is always satisfying.", "quantifier": "all fields, constants, assignments", "why_tests_cant": "soundness is universal over malicious assignments", "anchors": ["proof_of_space/src/circuit/mimc3_df_circuit.rs:generate_constraints", "proof_of_space/src/circuit/mimc5_df_circuit.rs:generate_constraints"]}
{"id": "C57", "title": "MiMC hash circuits", "statement": "The MiMC5/MiMC7 hash circuits accept the honest assignment for every input list and key, but they do not bind the key: for every input list of at least one element and every public output there is a satisfying assignment (chaining variables are re-allocated without constraints).", "quantifier": "all fields, inputs, outputs", "why_tests_cant": "existence of a malicious witness for every output", "anchors": ["proof_of_space/src/circuit/mimc5_hash_circuit.rs:generate_constraints", "proof_of_space/src/circuit/mimc7_hash_circuit.rs:generate_constraints"]}
{"id": "C58", "title": "pow circuit", "statement": "The honest assignment of PowDemo satisfies the constraints and outputs g^x; any satisfying assignment outputs y0 * g^x where y0 is an unconstrained private wire, hence every output is accepted for some assignment.", "quantifier": "all fields, bases, bit strings, assignments", "why_tests_cant": "universal over assignments", "anchors": ["proof_of_space/src/circuit/pow_circuit.rs:generate_constraints"]}
{"id": "C59", "title": "equal circuit", "statement": "The honest assignment of EqualDemo satisfies the constraints when x2 is the value of the bits and x1 the value of the first `difficulty` bits; because the two starting wires are unconstrained, every pair (x1, x2) is accepted for some assignment in a field where 2 is invertible (1 <= difficulty < 256).", "quantifier": "all fields with 2 invertible, all x1, x2", "why_tests_cant": "existence of a malicious witness for every statement", "anchors": ["proof_of_space/src/circuit/equal_circuit.rs:generate_constraints"]}
{"id": "C60", "title": "proof-of-space circuit completeness", "statement": "For every key, m, list of x and constants, with yn[i] the low N bits of df(key + x[i], m), the assignment computed by PospaceDemo satisfies all its constraints and its public inputs are key, m, yn[0..], hash(x).", "quantifier": "all field elements, list lengths, constants", "why_tests_cant": "all inputs; 256-bit decompositions", "anchors": ["proof_of_space/src/circuit/pospace_circuit.rs:generate_constraints"]}
{"id": "C61", "title": "proof-of-space circuit soundness fails", "statement": "For every key, m, every list of yn and every x_hash there is an assignment satisfying all constraints of PospaceDemo: the circuit accepts every public statement, so an accepted proof does not show that any space was used.", "quantifier": "all public inputs", "why_tests_cant": "existence of a malicious witness for every statement", "anchors": ["proof_of_space/src/circuit/pospace_circuit.rs:generate_constraints"]}
{"id": "C62", "title": "public-input order", "statement": "The public inputs allocated by PospaceDemo, in order, are exactly the vector assembled by verify(): key, m, one yn per response, x_hash.", "quantifier": "all inputs with at least one response", "why_tests_cant": "all response lists", "anchors": ["proof_of_space/src/circuit/pospace_circuit.rs:generate_constraints", "proof_of_space/src/proof_of_space/verifier.rs:verify"]}
{"id": "C63", "title": "circuit shape", "statement": "The constraints generated by PospaceDemo depend only on the number of responses and the constants, not on the values (so parameter generation with missing values describes the same circuit); with a different number of responses the number of constraints differs, so fewer than 50 answers do not fit the 50-answer parameters.", "quantifier": "all values, numbers of responses", "why_tests_cant": "relational over all inputs", "anchors": ["proof_of_space/src/circuit/pospace_circuit.rs:generate_constraints", "proof_of_space/src/proof_of_space/prover.rs:construct_circuit", "proof_of_space/src/proof_of_space/prover.rs:response_2"]}
{"id": "C64", "title": "what verify accepts", "statement": "verify() returns normally exactly when the backend returns Ok, whether Ok(true) or Ok(false): a proof the backend judges invalid is accepted; it panics only if the number of public inputs does not match the key (or the response indices are out of range).", "quantifier": "all backends, proofs, inputs", "why_tests_cant": "acceptance over all proofs", "anchors": ["proof_of_space/src/proof_of_space/verifier.rs:verify"]}
{"id": "C65", "title": "space challenges are in range", "statement": "Every challenge produced by create_challenges(n, end) with end <= 63 is below 2^end, there are exactly n, and every value below 2^end is produced by some random stream.", "quantifier": "all random streams, n, end", "why_tests_cant": "all random streams", "anchors": ["proof_of_space/src/proof_of_space/verifier.rs:create_challenges"]}
{"id": "C66", "title": "field remainder helper", "statement": "fmod(x, m) in the sloth circuit is 0 for every x and every invertible m (it is not a remainder), and panics for m = 0.", "quantifier": "all field elements", "why_tests_cant": "universal over the field", "anchors": ["proof_of_space/src/circuit/sloth_circuit.rs:fmod"]}
{"id": "C67", "title": "unseal never panics", "statement": "For every well-formed parameter set, whatever the dependency rules, and every file with at least block_cnt*block_pl bytes, honest or not (any bytes, keys above every hash value), unseal completes without panic, keeps the file length and does not touch anything after the last block.", "quantifier": "all files, hashes, keys, ivs and parameter sets", "why_tests_cant": "arbitrary adversarial files", "anchors": ["proof_of_storage/src/proof_of_storage/prover.rs:unseal"]}
{"id": "C68", "title": "what a whole proof-of-space run checks", "statement": "With a proof library that accepts the circuit's arity, the proof-of-space run (prepare, mark, 100 challenges, answer, prove, verify) returns normally exactly when at least 50 of the 100 challenges are answerable from the honest file, and panics otherwise; whether the proof is valid plays no role. The file it leaves is the complete inverse table, whatever the file held before.", "quantifier": "all keys, random streams, previous file contents, proof libraries", "why_tests_cant": "composition over all random streams and all proof libraries", "anchors": ["proof_of_space/src/proof_of_space/pospace.rs:pospace", "proof_of_space/src/proof_of_space/prover.rs:response_2", "proof_of_space/src/proof_of_space/verifier.rs:verify"]}
{"id": "C69", "title": "the sloth inverse circuit checks nothing", "statement": "SlothInvDemo generates no constraint: every public value is accepted for every modulus; its private values are 0 for every non-zero modulus, and proving panics when the modulus is missing or 0.", "quantifier": "all field elements", "why_tests_cant": "universal over public values", "anchors": ["proof_of_space/src/circuit/sloth_circuit.rs:generate_constraints"]}
{"id": "C70", "title": "what sealing computes", "statement": "The file produced by seal is exactly the one file that satisfies the sealing equations: every block starts as the plaintext block, step t rewrites unit t mod m from (unit + hash(sealed dependency units ++ current dependency units of the same block ++ chain value for unit 0)) mod key through the delay function, all other units unchanged, and the last state is the sealed block; bytes after the last block are untouched.", "quantifier": "all files, keys, ivs, hash functions, parameters", "why_tests_cant": "the exact in-place update order over all sizes, rounds and dependency choices", "anchors": ["proof_of_storage/src/proof_of_storage/prover.rs:seal"]}
{"id": "C71", "title": "what unsealing computes", "statement": "For any file at all of at least block_cnt*block_pl bytes (key above every hash value), unseal's result is exactly the one file satisfying the unsealing equations: each block is computed from the input file only (with random dependencies from the blocks the rule lists, with a deterministic rule from as many blocks counted from block 0), units from last to first, each (inverse delay function of the unit minus hash of its data) mod key.", "quantifier": "all files, honest or not, keys, ivs, hash functions", "why_tests_cant": "adversarial file contents; update order", "anchors": ["proof_of_storage/src/proof_of_storage/prover.rs:unseal"]}
{"id": "C72", "title": "what a response contains", "statement": "For any stored file and any block number, single_unseal_prepare returns exactly the stored units of the block, the hash of the stored block before it (nothing for block 0) and the stored units of the blocks its dependency rule selects; batch_unseal_prepare returns the same for every block of the byte range, in order.", "quantifier": "all stored files, block numbers, ranges, dependency modes", "why_tests_cant": "arbitrary file contents", "anchors": ["proof_of_storage/src/proof_of_storage/verifier.rs:single_unseal_prepare", "proof_of_storage/src/proof_of_storage/verifier.rs:batch_unseal_prepare"]}
{"id": "C73", "title": "what the verifier computes from a response", "statement": "For any response of the right shape, batch_unseal's result is exactly the solution of the unsealing equations in which dependency data and chain value are taken from the response.", "quantifier": "all responses of the right shape, honest or not", "why_tests_cant": "adversarial inputs", "anchors": ["proof_of_storage/src/proof_of_storage/verifier.rs:batch_unseal"]}
{"id": "C74", "title": "responses can be made up from the original data", "statement": "For every list of challenged blocks, every choice of chain values and every choice of dependency blocks (even none), the original blocks sealed with those values are accepted by batch_unseal_and_verify and unsealed to the plaintext by the sequential and the parallel code (no masked number 0): the check does not show that the sealed file is stored.", "quantifier": "all challenges, all chain values and dependency blocks the answer may contain", "why_tests_cant": "existence of an accepted answer for every adversarial choice", "anchors": ["proof_of_storage/src/proof_of_storage/verifier.rs:batch_unseal_and_verify", "proof_of_storage/src/proof_of_storage/verifier.rs:batch_unseal", "proof_of_storage/src/proof_of_storage/verifier.rs:batch_unseal_parallel", "proof_of_storage/src/proof_of_storage/postorage.rs:test_pipeline"]}
{"id": "C75", "title": "a reply is determined by what it unseals to", "statement": "For fixed block numbers, chain values and dependency blocks, two replies that batch_unseal maps to the same plaintext are equal if neither makes it hand the inverse delay function a number outside 1..key-1; the honestly stored blocks (no masked number 0) are such a reply and the only one for the true chain value and dependencies. Without that condition it fails: a reply whose last unit is key-2 may be replaced by one whose last unit is 0.", "quantifier": "all replies of the right shape, all chain values and dependency blocks, all sealed files", "why_tests_cant": "injectivity over all replies; the colliding values are two out of 2^1024", "anchors": ["proof_of_storage/src/proof_of_storage/verifier.rs:batch_unseal", "proof_of_storage/src/proof_of_storage/verifier.rs:single_unseal_prepare", "proof_of_storage/src/vde/rug_sloth.rs:sloth_inv"]}
{"id": "C76", "title": "what the file comparison reports", "statement": "file_compare.py reports the two lengths, 'right' exactly when the files agree up to the length of the shorter one, and a wrong count equal to the number of positions below both lengths where they differ; a truncated copy of a file is therefore reported right.", "quantifier": "all pairs of files", "why_tests_cant": "all pairs of byte strings", "anchors": ["proof_of_storage/src/proof_of_storage/file_compare.py"]}
{"id": "C77", "title": "the primality test of prime.py", "statement": "is_prime never rejects a prime whatever bases are drawn; it is exact for all numbers below 1009^2; for any composite at most a 4^-5 fraction of the possible draws of five bases lets it through; in general it accepts exactly the primes below 1000 and the numbers without prime factor below 1000 for which all five bases pass the strong probable-prime test. For 1009^2 some draw is accepted.", "quantifier": "all integers, all random draws", "why_tests_cant": "needs all numbers and all draws", "anchors": ["proof_of_storage/src/vde/prime.py:is_prime", "proof_of_storage/src/vde/prime.py:rabin_miller"]}
{"id": "C78", "title": "the modulus search", "statement": "get_prime returns a number of exactly the requested bit size, congruent 3 modulo 4, without a proper prime factor below 1000, and prime if the size is at most 19 bits; it passes over no admissible prime drawn earlier and stops at the latest at the first prime congruent 3 modulo 4.", "quantifier": "all sizes, all sequences of candidates and bases", "why_tests_cant": "all random streams, unbounded search", "anchors": ["proof_of_storage/src/vde/prime.py:get_prime"]}
{"id": "C79", "title": "the benchmark's modular exponentiation", "statement": "fastModPow(x, t, p) of test_modpow.py equals x^t mod p for every exponent below 2^53; it ends with an OverflowError for every exponent of at least 2^1025 and returns for every exponent up to 2^1024; for the exponents of the script's own 64-bit modulus it returns a wrong value, since int(t/2) goes through a float.", "quantifier": "all integers x, exponents t and moduli p", "why_tests_cant": "all integers", "anchors": ["proof_of_storage/src/vde/test_modpow.py:fastModPow"]}
{"id": "C80", "title": "driver runs one after the other", "statement": "Start from any files, let any sequence of successful driver runs go by and do one more run: if the last run that sealed did not unseal, the single-block check passes for every thread schedule and leaves the files alone; if it did unseal, the proof of leaves passes for all drawn leaves; the original, the sealed file and the stored key depend on that last sealing run only; a run that needs a file nobody has written panics. Exchanging the two conditions fails: unsealing overwrites the sealed file, and a sealing run without unsealing leaves a stale unsealed file behind.", "quantifier": "all initial files, all finite histories of runs with any flags and random data, all schedules", "why_tests_cant": "unbounded histories, all schedules", "anchors": ["proof_of_storage/src/proof_of_storage/postorage.rs:test_postorage", "proof_of_storage/src/proof_of_storage/postorage.rs:seal_and_unseal", "proof_of_storage/src/proof_of_storage/postorage.rs:unseal_single_and_verify"]}
{"id": "C81", "title": "a spot check decides exactly about the challenged blocks", "statement": "Whatever bytes the prover stores, they unseal to some file of the size of the data; a challenge on a list of blocks passes, for every number of threads and schedule, exactly if that file agrees with the original on those blocks, and panics otherwise. Challenging every block is the same as restoring the file and comparing it. The single-block check of the driver decides the same about the first ten blocks, and a series of challenges about the union of the blocks drawn. The Merkle tree over the block ids plays no part in the verdict.", "quantifier": "all stored files of sufficient length, all originals, block lists, id lists, thread counts and schedules", "why_tests_cant": "all stored files, honest or not, and all schedules", "anchors": ["proof_of_storage/src/proof_of_storage/postorage.rs:test_pipeline", "proof_of_storage/src/proof_of_storage/postorage.rs:unseal_single_and_verify", "proof_of_storage/src/proof_of_storage/verifier.rs:batch_verify", "proof_of_storage/src/proof_of_storage/verifier.rs:single_unseal_prepare"]}
{"id": "C82", "title": "the first damaged block is caught, up to pad bytes", "statement": "If a stored file agrees with the honest sealed file before block k and differs in block k, and unsealing block k needs only numbers 1 .. key - 1, then the unsealed block differs from the padded original; if its pad bytes are zero, block k is not restored and every challenge that includes k panics. Hence the honest file is the only such file that restores the original with zero pad bytes. The checks ignore the pad bytes: sealing the original with other pad bytes gives a different stored file that passes everything.", "quantifier": "all stored files, all first positions of damage, all originals", "why_tests_cant": "all damaged files", "anchors": ["proof_of_storage/src/proof_of_storage/postorage.rs:test_pipeline", "proof_of_storage/src/proof_of_storage/verifier.rs:batch_verify", "proof_of_storage/src/proof_of_storage/prover.rs:unseal", "proof_of_storage/src/proof_of_storage/prover.rs:seal"]}
{"id": "C83", "title": "every challenge is equally likely, and drawing it ends", "statement": "When each draw from the range a .. b - 1 is equally likely, all challenges of c different indices from that range are equally likely: counted over all sequences of L draws, for every L, each is the result of the same number of them, namely one in (b - a choose c) of the sequences that are enough. A sequence is enough exactly if it has c different values, and then later draws do not matter. For c <= b - a the share of sequences of length L that are not enough is at most (b - a choose c - 1) * ((c - 1) / (b - a))^L, which tends to 0: the loop ends with probability one. For c >= 2 no fixed number of draws is always enough.", "quantifier": "all ranges, numbers of indices, numbers of draws, and pairs of challenges", "why_tests_cant": "all sequences of draws of all lengths", "anchors": ["proof_of_storage/src/proof_of_storage/verifier.rs:create_challenges"]}
{"id": "C84", "title": "the chance that lost data goes unnoticed", "statement": "Take any stored file that is restored to the original on exactly g of its n blocks. Counted over all sequences of draws that are enough for cnt indices, the challenges it passes have the share (g choose cnt) / (n choose cnt), whatever the thread count and schedule; this is at most (g / n)^cnt. A run of k challenges is passed with the k-th power of it. If at most half of the blocks are restored, at most one run in 2^(cnt * k) is passed. With the shipped parameters n is 256, and the test uses cnt = k = 10.", "quantifier": "all stored files, all originals, all numbers of lost blocks, indices per challenge and challenges per run, all draws", "why_tests_cant": "a count over all draws for all stored files", "anchors": ["proof_of_storage/src/proof_of_storage/postorage.rs:test_pipeline", "proof_of_storage/src/proof_of_storage/verifier.rs:create_challenges", "proof_of_storage/src/proof_of_storage/verifier.rs:batch_verify"]}
{"id": "C85", "title": "the MiMC hashes as functions", "statement": "mimc5_hash and mimc7_hash add the key, raise to the 5th resp. 7th power, then in each further round add key and round constant and raise again, and add the key at the end (10 and 91 rounds); they panic exactly for fewer than 10 resp. 91 constants and ignore the first constant and the surplus ones. Over the scalar field of BLS12-381 each is a permutation for every key. The list hashes chain: absorbing x in state r gives r + x + hash(x under r), so the hash of a list is the key for hashing what follows, the empty list hashes to the key, and key and list are not bound: the hash of a list is the hash of its tail under another key. The delay functions mimc3_df, mimc5_df have, for every result, exactly one preimage pair for each value of the half that is thrown away.", "quantifier": "all field elements, keys, lists, constant lists", "why_tests_cant": "universal over a 255-bit field and lists of any length", "anchors": ["proof_of_space/src/mimc/mimc_hash.rs:mimc5_hash", "proof_of_space/src/mimc/mimc_hash.rs:mimc7_hash", "proof_of_space/src/mimc/mimc_hash.rs:multi_mimc5_hash", "proof_of_space/src/mimc/mimc_hash.rs:multi_mimc7_hash", "proof_of_space/src/mimc/mimc_df.rs:mimc5_df", "proof_of_space/src/mimc/mimc_df.rs:mimc3_df"]}
{"id": "C86", "title": "a space marked for one key serves the neighbouring keys", "statement": "The answer of a marked space to one challenge y is the largest x that leads to y, or nothing if there is none. Because key and x enter only through their sum, x leads to y under key + d exactly if x + d does under key: a space marked for key answers challenges for key + d after subtracting d, and of the challenges a space marked for key + d answers, at most d are missed. So one space of 2^n slots serves many keys.", "quantifier": "all keys, distances d, parameters m, constants, sizes n from 3 to 58, challenges", "why_tests_cant": "universal over keys and distances", "anchors": ["proof_of_space/src/proof_of_space/prover.rs:mark_space", "proof_of_space/src/proof_of_space/prover.rs:response_1"]}
{"id": "C87", "title": "which stored blocks a restored block comes from", "statement": "Restoring block k reads the stored blocks k, k - 1 and its dependency blocks (random rule: the ones selected, at most cnt_l + 2 in all; deterministic rules: as many as the rule lists, counted from block 0; never one after k) and nothing else: two stored files, honest or not, that agree on these are restored to the same block k. Hence damage to some stored blocks spares every block that reads none of them and all blocks before the first damaged one; a prover that keeps only the blocks read by the challenged ones passes that challenge; and the iv matters for block 0 only (with one sealing round only for its first unit, which then differs exactly if the hashes of the two strings ending in the iv differ).", "quantifier": "all pairs of stored files, all ivs, all sets of damaged blocks, hash functions and parameter sets", "why_tests_cant": "all damage patterns and adversarial files", "anchors": ["proof_of_storage/src/proof_of_storage/prover.rs:unseal", "proof_of_storage/src/proof_of_storage/postorage.rs:test_pipeline"]}
{"id": "C88", "title": "a crash while the public data is saved", "statement": "save_data writes key and iv without truncating or syncing. Interrupted after any number k of bytes in a new file, loading panics. Interrupted over the data of an earlier run with the same key and an iv of the same length, loading never fails: it returns the key and an iv that is new up to the crash point and old after it. With that iv all blocks but block 0 of the file just sealed are restored and every challenge without block 0 passes; block 0 may be lost.", "quantifier": "all keys, old and new ivs, crash points, sealed files, challenges", "why_tests_cant": "all crash points", "anchors": ["proof_of_storage/src/proof_of_storage/postorage.rs:save_data", "proof_of_storage/src/proof_of_storage/postorage.rs:load_data", "proof_of_storage/src/proof_of_storage/postorage.rs:seal_and_unseal"]}
{"id": "C89", "title": "the proof of the leaves looks at every block but the first", "statement": "merkle_tree_proof builds the proof and the claimed leaves from the unsealed file itself and the root from the original, so for every nonempty list of drawn leaves it passes exactly if the two roots agree: the drawn leaves do not matter. Passing means that every block after the first agrees with the original, or the hash collides on two strings that were hashed; agreeing after the first block is enough to pass, whatever the first block contains. The same holds for a driver run with the leaves flag and the two files on disk.", "quantifier": "all pairs of files, all lists of drawn leaves, all parameter sets with whole blocks, all histories of driver runs", "why_tests_cant": "all files and draws, and collisions cannot be tested for", "anchors": ["proof_of_storage/src/proof_of_storage/postorage.rs:merkle_tree_proof", "proof_of_storage/src/proof_of_storage/merkle_tree.rs:generate_merkle_tree_from_file", "proof_of_storage/src/proof_of_storage/merkle_tree.rs:verify_merkle_proof"]}
{"id": "C90", "title": "what a killed sealing run leaves on disk", "statement": "If seal_and_unseal is killed at any byte of any write, the three files it writes are in exactly one of these families of states: nothing written; a part of the padded original; the sealed blocks up to some byte with the padded original behind it, old public data; all sealed with a part of the public data written; all public data written and the blocks above some point unsealed again; everything unsealed and a part of the original written out. Each of these states occurs. Until everything is sealed the old public data stay, which belong to another sealing.", "quantifier": "all kill points in every write, all originals, ivs, earlier disk contents and parameter sets that seal soundly", "why_tests_cant": "kill points and contents are unboundedly many", "anchors": ["proof_of_storage/src/proof_of_storage/postorage.rs:seal_and_unseal", "proof_of_storage/src/proof_of_storage/prover.rs:seal", "proof_of_storage/src/proof_of_storage/prover.rs:unseal", "proof_of_storage/src/proof_of_storage/prover.rs:copy_and_pad", "proof_of_storage/src/proof_of_storage/prover.rs:copy_and_compress", "proof_of_storage/src/proof_of_storage/postorage.rs:save_data"]}
{"id": "C91", "title": "what can be recovered from a file whose sealing or unsealing was killed", "statement": "Killed while sealing at byte p, running the unseal loop on the finished blocks only gives back the padded original except for the bytes between the start of the torn block and p. Killed while unsealing after p bytes of block b, going on from block b gives back everything but the rest of block b. Calling unseal again from the start, which is all the code offers, gives back the blocks that were still sealed as a whole (with another iv, all of them but block 0) and transforms the others a second time: it is not idempotent.", "quantifier": "all kill points, originals, ivs and parameter sets that seal soundly", "why_tests_cant": "kill points and contents are unboundedly many", "anchors": ["proof_of_storage/src/proof_of_storage/prover.rs:seal", "proof_of_storage/src/proof_of_storage/prover.rs:unseal"]}
{"id": "C92", "title": "the chance that a proof-of-space run ends well", "statement": "Every list of challenges comes from exactly one outcome of the random bits, so all lists are equally likely. From any space file, honest or not, that answers g of the 2^e values, the outcomes in which 50 of L challenges are answered number exactly the sum over j >= 50 of (L choose j) g^j (2^e - g)^(L-j), which is at most the share (L choose 50) (g/2^e)^50. A file of s bytes answers at most one value for each e+1 bits (rounded up), so a file of at most an eighth of the size gets 50 answers out of 100 in at most one of 2^50 outcomes. A whole honest run ends normally in exactly the number of outcomes the formula gives for the values that some x is mapped to, and panics otherwise; if at least half of the values are answerable, so are at least half of the outcomes.", "quantifier": "all space files, keys, constants, challenge sizes up to 58 bits, and all outcomes of the random bits", "why_tests_cant": "the number of outcomes is 2^2000, and the share is a statement about all of them", "anchors": ["proof_of_space/src/proof_of_space/verifier.rs:create_challenges", "proof_of_space/src/proof_of_space/prover.rs:response_1", "proof_of_space/src/proof_of_space/pospace.rs:pospace"]}
{"id": "C93", "title": "what is lost when a deterministic rule selects the dependencies", "statement": "Sealing hashes the blocks the rule lists, unsealing as many blocks counted from block 0. Every block whose list is 0, 1, 2, ... is restored: exactly the first two blocks with rule 1, the first three with rule 2, the first ten with rule 3, and all if the rule lists nothing. With one sealing round another block is restored if and only if, for every unit, the string hashed for sealing and the one hashed for unsealing have the same hash; so it is lost unless the wrong stored blocks hold the same bytes as the right ones or the hash collides on two strings hashed by the code. Every challenge to the sealed file passes nevertheless, for every schedule. A run of the whole pipeline ends normally exactly if the restored file has the same root as the original, which means every block but the first was restored, or SHA-256 collides on two hashed strings.", "quantifier": "all files, keys, ivs, hash functions, deterministic rules and counts, challenges and schedules", "why_tests_cant": "which blocks are lost depends on hashes of stored data; all files and schedules", "anchors": ["proof_of_storage/src/proof_of_storage/prover.rs:seal", "proof_of_storage/src/proof_of_storage/prover.rs:unseal", "proof_of_storage/src/proof_of_storage/depend.rs:long_depend", "proof_of_storage/src/proof_of_storage/postorage.rs:test_pipeline"]}
{"id": "C94", "title": "which part of a Merkle proof counts", "statement": "The verdict on a list of hashes supplied as a proof depends only on its first K entries, where K is the length of the honest proof of the same leaves (at most one hash per leaf and layer of the tree, each 32 bytes); a shorter list panics and surplus hashes are ignored, so an accepted proof may be continued at will and the same holds for the check of a response. The K entries are determined: if a list is accepted for the honest root and some claimed leaves, the claimed leaves at the proved places are the true ones and the list begins with the honest proof, or two different strings hashed by prover and verifier collide. A proof for an empty list of leaves is never accepted, so a challenge of no leaf panics whatever is stored.", "quantifier": "all leaf values, index lists, supplied hash lists, roots, claimed leaves and hash functions", "why_tests_cant": "all adversarial proofs, and collisions cannot be tested for", "anchors": ["proof_of_storage/src/proof_of_storage/merkle_tree.rs:verify_merkle_proof", "proof_of_storage/src/proof_of_storage/merkle_tree.rs:generate_merkle_proof", "proof_of_storage/src/proof_of_storage/postorage.rs:test_pipeline"]}
{"id": "C95", "title": "what a sealed block is made of", "statement": "A sealed block is determined by its original block, by the hash of the sealed block before it (by the iv for block 0) and by the sealed blocks selected as its dependencies: two sealings, of different files under different ivs, that agree on these produce the same sealed block. Hence from block j >= 1 on, the iv and the earlier data act through the sealed blocks only. Under one iv and if no masked number was 0, the first j sealed blocks of two files agree exactly if their first j original blocks do, so the first block that changes in the file is the first that changes in the sealed file. Sealing evaluates the delay function exactly once per unit and round.", "quantifier": "all hash functions, keys, parameters, dependency rules, pairs of files and ivs, and prefix lengths", "why_tests_cant": "all pairs of files and ivs are compared", "anchors": ["proof_of_storage/src/proof_of_storage/prover.rs:seal", "proof_of_storage/src/proof_of_storage/depend.rs:long_mode_random", "proof_of_storage/src/proof_of_storage/depend.rs:long_depend"]}
{"id": "C96", "title": "saving public data over other contents, interrupted", "statement": "save_data is interrupted after k bytes over a file with any previous content. Once the key and the length of the iv are written, load_data returns the new key with an iv that is new as far as it was written and otherwise whatever the file contained; it panics only if the file is too short for that. All blocks but block 0 of the file just sealed are still restored with this iv and challenges without block 0 pass. Over the data of a run with another of the three shipped keys the outcome is exactly this: the old data for k = 0, the new data if everything was written, a panic otherwise, except that a shorter key written over a longer one up to its iv is loaded with an iv that ends in decimal digits of the old key.", "quantifier": "all previous contents, crash points, keys (the three shipped ones for the complete table), ivs, parameters with the random block rule, hash functions", "why_tests_cant": "every crash point and previous content", "anchors": ["proof_of_storage/src/proof_of_storage/postorage.rs:save_data", "proof_of_storage/src/proof_of_storage/postorage.rs:load_data", "proof_of_storage/src/proof_of_storage/postorage.rs:prepare_params", "proof_of_storage/src/proof_of_storage/postorage.rs:test_pipeline"]}
{"id": "C97", "title": "short reads", "statement": "The operating system may deliver fewer bytes than a read asks for; read_file ignores the number and keeps zeros for the rest. With any number of bytes delivered by every single read, copying, sealing, unsealing and removing the padding all succeed. The copies work on the data as delivered. Sealing publishes ids of the blocks it stores; if only reads of blocks to be sealed are short it stores exactly the sealing of the data as delivered. Unsealing short of data damages only the blocks whose own reads were short. Over the whole way every block whose reads were all complete comes back; a single short read anywhere else loses a block although all steps succeed. With complete reads everything is as without this effect.", "quantifier": "all numbers of delivered bytes for every read, files, keys, ivs, parameters of the sealing theorems, hash functions", "why_tests_cant": "every combination of short reads; a test on a local file system sees none", "anchors": ["proof_of_storage/src/proof_of_storage/common.rs:read_file", "proof_of_storage/src/proof_of_storage/prover.rs:seal", "proof_of_storage/src/proof_of_storage/prover.rs:unseal", "proof_of_storage/src/proof_of_storage/prover.rs:copy_and_pad", "proof_of_storage/src/proof_of_storage/prover.rs:copy_and_compress"]}
{"id": "C98", "title": "offsets in 64-bit arithmetic", "statement": "All file offsets of the storage code are usize products and sums, buffers hold at most isize::MAX bytes, and the file system refuses to seek beyond some limit of at most 2^63. With any such limit and in both build profiles, copying, sealing, unsealing and the Merkle tree of a file either do exactly what they do with unbounded numbers, namely if every piece starts below the limit, or they panic: no offset ever wraps in a run that ends normally, and sealing panics only after the blocks below the limit have been sealed. The same holds for a response and for the comparison with the original if the offset of the block is a 64-bit number; otherwise a debug build panics and a release build answers with the block at the wrapped offset. The list of blocks of a byte range is as with unbounded numbers if the end is a block away from 2^64; otherwise the loop may never end in a release build. With the shipped parameters everything fits on a file system that can seek to 128 MiB.", "quantifier": "all limits, profiles, parameters (sane dependency counts for unsealing), files, keys, hash functions", "why_tests_cant": "sizes near 2^63 cannot be tested, and every smaller size is only an instance", "anchors": ["proof_of_storage/src/proof_of_storage/common.rs:read_file", "proof_of_storage/src/proof_of_storage/prover.rs:seal", "proof_of_storage/src/proof_of_storage/prover.rs:unseal", "proof_of_storage/src/proof_of_storage/prover.rs:copy_and_pad", "proof_of_storage/src/proof_of_storage/prover.rs:copy_and_compress", "proof_of_storage/src/proof_of_storage/verifier.rs:single_unseal_prepare", "proof_of_storage/src/proof_of_storage/verifier.rs:batch_unseal_prepare", "proof_of_storage/src/proof_of_storage/verifier.rs:batch_verify", "proof_of_storage/src/proof_of_storage/merkle_tree.rs:generate_merkle_tree_from_file"]}
{"id": "C99", "title": "space preparation or marking killed", "statement": "A kill while the space is prepared leaves the file as it was or a number of zero bytes, and the next preparation is not affected. A kill while it is marked leaves exactly the table of the values below some X, or that of the values below x with the first bits of x already written over its slot up to a byte boundary inside the slot. From such a file every answer is right, except that in one slot it can be made of the low bits of one value and the high bits of a smaller one that both map there; a challenge without an answer is one no value below X maps to. Marking again from the start gives the file the killed run would have given. Marking writes over whatever is there: a slot no value maps to keeps its content, so a space marked for one key and then for another without preparation answers for the first key, and a space whose preparation was killed gives false answers when marked all the same.", "quantifier": "all kill points, keys, messages, constants, space sizes n from 3 to 58 (preparation: up to 58), earlier file contents, prime fields, both profiles", "why_tests_cant": "a kill point is any byte of any write of any value", "anchors": ["proof_of_space/src/proof_of_space/prover.rs:prepare_space", "proof_of_space/src/proof_of_space/prover.rs:mark_space", "proof_of_space/src/proof_of_space/prover.rs:response_1"]}
{"id": "C100", "title": "short reads while answering, checking and hashing", "statement": "When the operating system delivers fewer bytes than asked for, answering, checking and hashing never notice. The answer for a block holds the block, the hash of the block before and the dependencies as they arrived, with zeros for the rest, and the hash of what arrived decides which dependencies are sent; a range is answered block by block. The verifier compares with the original as it arrived. A challenge on any stored file passes, for every schedule and number of threads, exactly if what each answer unseals to is the original block as it arrived, and panics otherwise; with complete reads on the prover's side that is the block of the restored file. So one short read makes an honest prover fail, and a prover that has lost part of a block passes if exactly that part did not reach the verifier and the lost part is restored as zeros. The Merkle tree of a file is the tree of the file as it arrived.", "quantifier": "all stored and original files, byte counts of every read, challenged blocks, seeds, keys, iv, modes, schedules and numbers of threads, both profiles", "why_tests_cant": "a read may be short at any call and by any amount", "anchors": ["proof_of_storage/src/proof_of_storage/verifier.rs:single_unseal_prepare", "proof_of_storage/src/proof_of_storage/verifier.rs:batch_unseal_prepare", "proof_of_storage/src/proof_of_storage/verifier.rs:batch_verify", "proof_of_storage/src/proof_of_storage/verifier.rs:batch_unseal_and_verify", "proof_of_storage/src/proof_of_storage/merkle_tree.rs:generate_merkle_tree_from_file", "proof_of_storage/src/proof_of_storage/postorage.rs:test_pipeline"]}
{"id": "C101", "title": "files of the wrong length", "statement": "No operation notices where a file ends. Two files with the same bytes, the missing ones counted as zeros, are sealed, unsealed, copied, answered from, checked against and hashed alike, for any parameters: both runs panic or neither does, and what they write has the same bytes again; no challenge, check of the first ten blocks or tree proof tells them apart. After sealing or unsealing, a file is as long as before or as its blocks, whichever is longer. A file that is too short is sealed and unsealed exactly as the file filled up with zeros, so unsealing never panics whatever the length, a round trip gives the file back filled up, and spot checks of a stored file of any length pass exactly if what it is restored to agrees with the original on the challenged blocks. Of an original of any length, exactly the first data_l bytes, filled up with zeros, are sealed and written back by the whole round trip.", "quantifier": "all files of all lengths, parameters, keys, iv, modes, kill points between blocks, schedules and numbers of threads, both profiles", "why_tests_cant": "any file may end anywhere", "anchors": ["proof_of_storage/src/proof_of_storage/common.rs:read_file", "proof_of_storage/src/proof_of_storage/prover.rs:seal", "proof_of_storage/src/proof_of_storage/prover.rs:unseal", "proof_of_storage/src/proof_of_storage/prover.rs:copy_and_pad", "proof_of_storage/src/proof_of_storage/verifier.rs:single_unseal_prepare", "proof_of_storage/src/proof_of_storage/verifier.rs:batch_verify", "proof_of_storage/src/proof_of_storage/postorage.rs:seal_and_unseal"]}
{"id": "C102", "title": "what the iv is needed for", "statement": "The iv enters the mask of the first unit of the first block and nothing else. Unsealing any stored file with two ivs gives results that agree everywhere after the first block, so whoever has the key but a wrong iv restores every other block of an honest file; with one sealing round everything but the first unit, which is off by the difference of the two masks modulo the key. Unsealing copies of blocks other than the first, sequentially, in threads or together with the comparison, does not depend on the iv, and a challenge without block 0 ends the same way whatever iv the public file holds. When sealing, the other blocks and all block ids depend on the iv only through the sealed first block.", "quantifier": "all files, parameters, keys, pairs of ivs, hashes, schedules and numbers of threads, both profiles", "why_tests_cant": "all pairs of ivs and all files", "anchors": ["proof_of_storage/src/proof_of_storage/prover.rs:seal", "proof_of_storage/src/proof_of_storage/prover.rs:unseal", "proof_of_storage/src/proof_of_storage/verifier.rs:batch_unseal", "proof_of_storage/src/proof_of_storage/verifier.rs:batch_unseal_and_verify", "proof_of_storage/src/proof_of_storage/verifier.rs:batch_unseal_parallel", "proof_of_storage/src/proof_of_storage/postorage.rs:test_pipeline"]}
{"id": "C103", "title": "paths that name the same file, or none", "statement": "Every call is described on a disk, for all choices of paths. seal_and_unseal with four different paths does what the functions on contents do and leaves every other file alone, also when it panics; if the original is missing nothing is created, emptied or written. For equal paths the files left and the outcome are the same as for different ones, with one exception: a file copied onto itself counts as empty. So sealing in place of the original leaves the same files whatever the original contained, unsealing into the sealed file leaves zeros, public data written over the original or the sealed file replaces its beginning, and restoring over the original cuts it to data_l bytes. With sound parameters none of this is noticed: the run succeeds whatever the paths are, and checking a file against itself passes. seal and unseal change only their file; a panic leaves whole blocks done.", "quantifier": "all disks, choices of the four paths (equal or not), parameters, hashes, random draws, both profiles", "why_tests_cant": "all disks and all choices of paths, including panics", "anchors": ["proof_of_storage/src/proof_of_storage/prover.rs:copy_and_pad", "proof_of_storage/src/proof_of_storage/prover.rs:copy_and_compress", "proof_of_storage/src/proof_of_storage/prover.rs:seal", "proof_of_storage/src/proof_of_storage/prover.rs:unseal", "proof_of_storage/src/proof_of_storage/postorage.rs:save_data", "proof_of_storage/src/proof_of_storage/postorage.rs:load_data", "proof_of_storage/src/proof_of_storage/postorage.rs:seal_and_unseal", "proof_of_storage/src/proof_of_storage/postorage.rs:merkle_tree_proof"]}
{"id": "C104", "title": "what the result files say about the runs", "statement": "The result files only grow. Without should_save_run_data the driver leaves both untouched. With it the run ends the same way (unless a length is 0: then it panics before doing anything), the run file gets the parameters, and the times and one statistics line are added exactly if the run seals and unseals and both end; the checks that follow have no influence, so a run that fails them is reported like any other, and a run that only seals reports no time. Over any sequence of runs the statistics file gets one line for each run that saved, sealed and unsealed. Read as tables, the texts give every parameter and time under its own label, or in its own column. Two statistics lines are equal exactly if nine parameters and all times are; the rounds of the delay function are not among them (the run file has them). The pipeline's record says how far it got: all lines if it ended well, otherwise a proper beginning whose first missing line names the step that failed, never the check of the response hash; as many challenges passed as there are lines of the last check; and the text can be read back uniquely. The proof-of-space report is appended exactly for the samples that end well, up to the first that does not, and always says 50/50.", "quantifier": "all parameters, flags, previous contents, histories of runs, schedules, measured times, samples and proof libraries", "why_tests_cant": "all histories of runs and all points of failure", "anchors": ["proof_of_storage/src/proof_of_storage/postorage.rs:test_postorage", "proof_of_storage/src/proof_of_storage/postorage.rs:seal_and_unseal", "proof_of_storage/src/proof_of_storage/postorage.rs:test_pipeline", "proof_of_space/src/proof_of_space/pospace.rs:pospace", "proof_of_space/src/proof_of_space/pospace.rs:test_pospace"]}
{"id": "C105", "title": "challenges answered while the file is being sealed or unsealed", "statement": "Nothing locks the sealed file, so an answer can be read while sealing or unsealing goes on in place. The answer for block k is the one from the finished sealed file whenever block k is sealed while it is read and the blocks before it are sealed while the rest of the answer is read, no matter how far the other process has come or how it moves between the reads or within one; the same holds for byte ranges, and a challenge on such blocks passes for every number of threads and schedule. Answering never fails because of the other process: at other moments the answer holds whatever each read found, and the challenge passes exactly if that unseals to the original block; read before the block is wholly sealed, or with the block before it already unsealed when its hash is taken, it fails.", "quantifier": "all originals, ivs and parameter sets that seal soundly, all moments of sealing and unsealing down to single bytes, independently for every byte of every read, all challenged blocks, thread counts and schedules; for the verdict also all other file contents", "why_tests_cant": "all interleavings of reads and writes", "anchors": ["proof_of_storage/src/proof_of_storage/prover.rs:seal", "proof_of_storage/src/proof_of_storage/prover.rs:unseal", "proof_of_storage/src/proof_of_storage/verifier.rs:single_unseal_prepare", "proof_of_storage/src/proof_of_storage/verifier.rs:batch_unseal_prepare", "proof_of_storage/src/proof_of_storage/postorage.rs:test_pipeline"]}
{"id": "C106", "title": "what sealing, unsealing and checking cost", "statement": "Sealing n blocks of m units evaluates the delay function exactly n*m*seal_rounds times and unsealing its inverse as often, whatever the data, key, iv and dependency rules. One evaluation with t iterations takes t powers with exponent (p+1)/4, its inverse t squarings; a power costs one multiplication for each binary digit of e and one more for each digit 1, so between log2 e + 2 and 2(log2 e + 1), and the residue test exactly the calls and halvings of the chain of remainders, at most 2 log2 |x| + 4 calls with log2 |x| halvings altogether. Unsealing undoes exactly the evaluations of sealing, in the opposite order, none skipped or repeated, and checking some blocks undoes exactly those of these blocks, for every number of threads and schedule. What checking costs is however decided by the answer alone: once per unit in it and round, so an answer to a single challenged block can make the verifier work for any time.", "quantifier": "all files, keys, ivs, dependency rules and parameter sets with whole units and blocks, all integers and iteration counts, all answers, thread counts and schedules; for what is undone all sealable files without a zero", "why_tests_cant": "all sizes and iteration counts", "anchors": ["proof_of_storage/src/vde/rug_sloth.rs:legendre", "proof_of_storage/src/vde/rug_sloth.rs:sloth", "proof_of_storage/src/vde/rug_sloth.rs:sloth_inv", "proof_of_storage/src/vde/compare_modpow.rs:fast_modpow", "proof_of_storage/src/proof_of_storage/prover.rs:seal", "proof_of_storage/src/proof_of_storage/prover.rs:unseal", "proof_of_storage/src/proof_of_storage/verifier.rs:batch_unseal", "proof_of_storage/src/proof_of_storage/verifier.rs:batch_unseal_parallel"]}
{"id": "C107", "title": "how much room a run needs, and a full disk", "statement": "Sealing and unsealing in place need no room beyond what padding took; padding and writing out the original empty their file first and then need exactly what they write; saving needs what is longer than the old public data. A call that panics with room enough panics in any room. A first run of seal_and_unseal completes exactly when the free bytes hold the padded file, the public data and, if it unseals, the original once more; a run over the files of an earlier one needs none. With less room the run writes what fits, panics with nothing free, and leaves files that a run killed at some byte could have left, given exactly. It does not look for room first: where only the public data does not fit, the whole file is sealed, then the run panics and the public data cannot be loaded.", "quantifier": "all files, parameter sets, keys, ivs and amounts of free room, all previous contents of the three files; for the run all sealable originals without a zero residue", "why_tests_cant": "all amounts of free room and all places where it runs out", "anchors": ["proof_of_storage/src/proof_of_storage/postorage.rs:seal_and_unseal", "proof_of_storage/src/proof_of_storage/postorage.rs:save_data", "proof_of_storage/src/proof_of_storage/prover.rs:copy_and_pad", "proof_of_storage/src/proof_of_storage/prover.rs:seal", "proof_of_storage/src/proof_of_storage/prover.rs:unseal", "proof_of_storage/src/proof_of_storage/prover.rs:copy_and_compress"]}
{"id": "C108", "title": "runs side by side on one disk", "statement": "Several runs may work at the same time. Whatever the order of their single accesses, and whichever are killed, no schedule goes on for ever and none gets stuck. If no run writes a file that another run reads or writes (originals may be shared), every run that ends has the result and the files it would have alone, a run under way or killed has the files of a part of its run alone, and no other file changes. Runs that save to one public file with the same key leave, from the moment the first has finished, a file that loads, with that key and an iv each of whose bytes comes from some run; every such mixture of two ivs is left by some order. Runs that share the sealed file may all report success and none get its file back.", "quantifier": "all numbers of runs, parameter sets, random draws, paths, files on disk, all interleavings of accesses and all kills", "why_tests_cant": "the interleavings of the accesses of any number of runs", "anchors": ["proof_of_storage/src/proof_of_storage/postorage.rs:seal_and_unseal", "proof_of_storage/src/proof_of_storage/postorage.rs:save_data", "proof_of_storage/src/proof_of_storage/prover.rs:copy_and_pad", "proof_of_storage/src/proof_of_storage/prover.rs:seal", "proof_of_storage/src/proof_of_storage/prover.rs:unseal", "proof_of_storage/src/proof_of_storage/prover.rs:copy_and_compress"]}
{"id": "C109", "title": "which files are sealed files", "statement": "With random long dependencies and at least one round, the files that sealing without a zero residue can produce are exactly the files in whose unsealing the inverse delay function is only given numbers 1..key-1; for such a file, sealed before or not, sealing what unsealing gives restores it. With one round these are all files whose units are numbers 1..key-1, so whoever chooses the data can make the sealed file one unit over and over. Sealing several times over, with an iv each, is undone by unsealing in the opposite order, not in the same order. Files with a unit outside 1..key-1 may not come back. A file is the padded form of an original exactly when it has the right length and each unit ends in a zero byte.", "quantifier": "all files, keys, ivs, hash functions, parameter sets, numbers of layers", "why_tests_cant": "all files; the image of a function is not seen by running it", "anchors": ["proof_of_storage/src/proof_of_storage/prover.rs:seal", "proof_of_storage/src/proof_of_storage/prover.rs:unseal", "proof_of_storage/src/proof_of_storage/prover.rs:copy_and_pad"]}
{"id": "C110", "title": "what preparing, marking and answering a space do to the disk", "statement": "Preparing writes the (n+1)2^n/8 bytes of the space one after the other; with less room on the disk (the old file's length counted in) it panics, leaving as many zeros as fit and no room. Marking evaluates the delay function once for each x below 2^n in order; after each evaluation it reads and writes, in ascending order and once each, exactly the bytes that hold the slot x is sent to, and reads at most one byte behind; so it makes 2^n(n+8)/8 to 2^n(n+15)/8 one-byte writes, never makes the file longer and needs no room. Answering evaluates and writes nothing; for the challenges it looks at it reads the bytes of the slot and at most one more, and it looks at all of them unless it has given 50 answers. A run of the three ends without a panic exactly when the disk has room for the space.", "quantifier": "all n, fields, keys, constants, challenge lists, rooms and earlier files", "why_tests_cant": "the number and place of all accesses, for every n and every amount of room", "anchors": ["proof_of_space/src/proof_of_space/prover.rs:prepare_space", "proof_of_space/src/proof_of_space/prover.rs:mark_space", "proof_of_space/src/proof_of_space/prover.rs:response_1"]}
{"id": "C111", "title": "the answers of a space do not show that the space is there", "statement": "For every k up to n, a prover that keeps slots of n-k+1 bits, (n-k+1)2^n bits in all in place of (n+1)2^n, gives the very answers, indices and hash that response_1 gives on the marked space, with at most 2^k evaluations of the delay function for each answered challenge, of which there are at most 50. A prover that keeps nothing gives them with at most 2^n evaluations for each challenge. The evaluations are counted exactly: one for each number tried, from the largest candidate down to the answer, summed over the challenges looked at, which are all of them unless 50 answers were found before.", "quantifier": "all n, k, fields, keys, constants and challenge lists", "why_tests_cant": "all spaces and all challenge lists; a test that runs the honest prover cannot see another one", "anchors": ["proof_of_space/src/proof_of_space/prover.rs:mark_space", "proof_of_space/src/proof_of_space/prover.rs:response_1", "proof_of_space/src/proof_of_space/verifier.rs:create_challenges"]}
{"id": "C112", "title": "one space used by several runs at the same time", "statement": "Any number of runs mark one space, each for its own key, or answer challenges from it, at the same time, in any order of their single-byte accesses, and any of them may be killed anywhere. None of them panics, the file keeps its length, no other file is touched, and at every moment the bits of a slot that lie in one byte of the file are those of one x that belongs there for one of the runs, or as they were at first; a challenge is answered only with bits of that kind whose mark is set. A slot where nothing belongs is never touched. With slots of 4 or 8 bits every slot is whole at every moment and every answer from a prepared space is right. Runs that only answer do so as if alone. But two runs that mark for the same key and both end well can lose an answer that either would have given alone, and a challenge answered while the space is being marked can get a wrong answer; marking once more, alone, gives the right table.", "quantifier": "all n from 3 to 58, fields, keys, lists of runs, schedules and kills", "why_tests_cant": "the number of schedules; a test runs one", "anchors": ["proof_of_space/src/proof_of_space/prover.rs:mark_space", "proof_of_space/src/proof_of_space/prover.rs:response_1", "proof_of_space/src/proof_of_space/prover.rs:prepare_space"]}
{"id": "C113", "title": "lost blocks of a sealed file can be sealed again one by one", "statement": "With the original and the hashes of the sealed blocks, any lost blocks of a sealed file can be sealed again in increasing order, running the body of the sealing loop for them alone, as long as each depends only on blocks that are there or are among them: exactly these blocks are replaced, by the bytes they had, with exactly the evaluations of the delay function that sealing spent on them; a file that lost the blocks D becomes the sealed file again for |D| m seal_rounds evaluations. So a prover that keeps the original and one hash per block, and of the sealed blocks all but those in D, gives for block k the very answer of the complete sealed file after sealing again those of D up to k; with no sealed block at all after k+1 of them. A block sealed again while a block it depends on is damaged comes out wrong, and nothing reports it.", "quantifier": "all hash functions, keys, ivs, parameters, dependency rules, sealable files, sets of lost blocks, contents in their place and challenged blocks", "why_tests_cant": "the number of sets of lost blocks and of contents in their place", "anchors": ["proof_of_storage/src/proof_of_storage/prover.rs:seal", "proof_of_storage/src/proof_of_storage/verifier.rs:single_unseal_prepare"]}
{"id": "C114", "title": "accepted answers give the data back", "statement": "Whoever keeps the accepted answers to challenges can compute from them, without the stored file and without the original, every block of the original that was asked for; once every block was asked for, the whole data. This holds for any prover, whatever its answers are made of, as long as each answer has one block for each index asked for; so against any prover, also one that chooses its answers after seeing the challenges so far, the draws for a run of R challenges of cnt out of n blocks with which all is accepted and yet the data cannot be computed from the answers have at most the share n ((n-cnt)/n)^R of the draws that are enough. The verifier itself does not count blocks: an answer without any is accepted to every challenge and gives nothing back.", "quantifier": "all provers and answers, all originals, keys, ivs and parameters (random unit rule or as many blocks as units per block), all runs of challenges and their draws", "why_tests_cant": "A test can show that some honest answers contain the data, not that every accepted answer of every prover must, nor how likely a run of challenges is to miss a block.", "anchors": ["proof_of_storage/src/proof_of_storage/verifier.rs:batch_unseal_and_verify", "proof_of_storage/src/proof_of_storage/verifier.rs:batch_unseal", "proof_of_storage/src/proof_of_storage/verifier.rs:batch_verify", "proof_of_storage/src/proof_of_storage/verifier.rs:create_challenges"]}
{"id": "C115", "title": "the bare data pass the parallel check", "statement": "A prover that never sealed anything passes every challenge of a verifier that unseals in parallel: for whatever parameters, hash, key, iv, tree, original, challenge and number of threads, and in every schedule, the original blocks sent as they are, with no dependencies, come back from batch_unseal_parallel unchanged and are accepted by the whole verifier's part of the pipeline; the sequential verifier panics on the same answer. In general an answer is accepted in parallel exactly if each of its blocks is unsealed to the original block by the sequential code, or makes that code panic and already is the original block; so also from what the parallel check accepts the data can be put together. With the messages of the honest prover the verifier's part is the challenge of the pipeline.", "quantifier": "all answers, originals, challenges, parameters whose table of unit dependencies can be built, schedules and numbers of threads", "why_tests_cant": "It needs a malformed answer and every schedule of the pool; a test of one honest or one damaged answer passes.", "anchors": ["proof_of_storage/src/proof_of_storage/verifier.rs:batch_unseal_parallel", "proof_of_storage/src/proof_of_storage/verifier.rs:batch_verify", "proof_of_storage/src/proof_of_storage/postorage.rs:test_pipeline"]}
{"id": "C116", "title": "which messages the verifier of a challenge accepts", "statement": "For whatever messages a prover sends (hash, blocks with hashes before and dependencies, Merkle proof), the verifier's part of a challenge has exactly one verdict in all schedules. It accepts exactly if three independent conditions hold: the hash is that of the random byte and the blocks sent; the Merkle proof fits the leaves, the root and the indices; and the key and iv can be loaded and for every index the block sent is unsealed to the original block (in parallel: or makes unsealing panic and already is the original block). So the random byte binds nothing: an answer accepted for one is accepted for every other with the hash computed anew; and the tree binds nothing: the same blocks are accepted with the proof of any other tree that has these indices.", "quantifier": "all messages, challenges, trees, originals, keys, parameters, schedules and numbers of threads", "why_tests_cant": "A test covers the honest messages and a few damaged ones; that nothing else is accepted and that the conditions do not interact is about all of them.", "anchors": ["proof_of_storage/src/proof_of_storage/postorage.rs:test_pipeline", "proof_of_storage/src/proof_of_storage/verifier.rs:batch_unseal", "proof_of_storage/src/proof_of_storage/verifier.rs:batch_unseal_parallel", "proof_of_storage/src/proof_of_storage/verifier.rs:batch_verify"]}
{"id": "C117", "title": "changing or growing sealed data", "statement": "If new data agree with sealed data on the first k blocks (the later blocks may be changed, added or removed, the parameters being the same up to the length of the data), the first k sealed blocks, their hashes and the prover's answers about them are the same, and running the sealing loop from block k on the k sealed blocks followed by the new data, with the k hashes only, gives exactly the sealed file and hashes of the new data; it takes only the evaluations of the blocks from k on. This needs short dependencies drawn at random and, with random long dependencies, numbers of blocks on the same side of 256 and 65536 (or the same number of blocks): from 256 to 257 blocks of the same data already sealed blocks change. And nothing after the first changed block can be kept: a change in one block changes sealed blocks whose data are the same.", "quantifier": "all data, changes, numbers of blocks, keys, ivs, hash functions, parameters and modes within the conditions", "why_tests_cant": "A test seals one file and one changed file; that no later part of the data enters an earlier sealed block, for any lengths, is about all pairs of files.", "anchors": ["proof_of_storage/src/proof_of_storage/prover.rs:seal", "proof_of_storage/src/proof_of_storage/depend.rs:long_mode_random", "proof_of_storage/src/proof_of_storage/verifier.rs:single_unseal_prepare"]}
{"id": "C118", "title": "changed data need not be sealed again", "statement": "The verifier accepts an answer exactly if each of its blocks, with the hash and the dependency blocks sent along with it, is unsealed to the block of the original asked for, and this looks at that block of the original only; from which sealing the blocks come is not seen. So when the data are changed after sealing, a prover passes every challenge on the new data, whatever tree, random byte, schedule and number of threads, with the answers of the old sealed file about the blocks that are the same and, for each changed block, that block alone sealed with the hash and the dependency blocks of the old file (as long as no masked number is zero). It never has to hold the sealed file of the new data, in which the later blocks are different.", "quantifier": "all data and changed data, challenges, trees, random bytes, hash functions, keys, ivs, parameters, schedules and numbers of threads", "why_tests_cant": "A test changes one block and checks that honest answers fail or pass; that every mixture of old and new blocks is accepted in every challenge is about all of them.", "anchors": ["proof_of_storage/src/proof_of_storage/verifier.rs:batch_unseal", "proof_of_storage/src/proof_of_storage/verifier.rs:batch_verify", "proof_of_storage/src/proof_of_storage/verifier.rs:single_unseal_prepare", "proof_of_storage/src/proof_of_storage/postorage.rs:test_pipeline"]}
{"id": "C119", "title": "a prover that never seals passes every challenge", "statement": "A prover that stores the original data only, has sealed nothing and has committed to the tree of any n values, answers every challenge by sealing each block asked for alone, with no dependencies and an empty hash for the block before: exactly m seal_rounds evaluations of the delay function for each block asked for, wherever it stands in the file, which is what the verifier itself needs to check the answer, and not the n m seal_rounds of sealing. The answer is accepted, in every schedule and with any number of threads, unless a masked number is zero. What is sent about a block does not depend on what else is asked for, so the blocks can be sealed at the same time. Since this holds for every key and iv, one stored original passes for any number of sealed copies.", "quantifier": "all data, keys, ivs, hash functions, parameters, challenges, trees, random bytes, schedules and numbers of threads", "why_tests_cant": "A test runs the honest prover; that a prover without any sealed block is accepted in every challenge and at which price is about all challenges.", "anchors": ["proof_of_storage/src/proof_of_storage/verifier.rs:batch_unseal", "proof_of_storage/src/proof_of_storage/verifier.rs:batch_verify", "proof_of_storage/src/proof_of_storage/prover.rs:seal", "proof_of_storage/src/proof_of_storage/postorage.rs:test_pipeline"]}
{"id": "C120", "title": "runs that prepare, mark and use one space at the same time", "statement": "Runs that work on the same file of a space at the same time, each preparing the space, marking it and answering challenges (and going on to the proof), change no other file, do not panic before the proof, keep the file within the size of the space, and answer only challenges they were asked, with numbers of the space, in every schedule and wherever runs are killed. If a slot is a whole number of bytes (n 3 or 7), a slot is at every moment empty or holds a right answer of one of the runs, and every answer given is right for one of the runs. Otherwise neither holds: two runs for the same key can both answer a challenge to which no x is mapped, because a run that reads past the end of a file just emptied keeps the byte it had in hand. For every size, a run that waits between marking and answering while another begins answers nothing; a whole run that loses its marks like this panics at the verification, whatever the challenges, while the other one is as if alone.", "quantifier": "all numbers of runs, keys, constants, challenges, sizes from 3 to 58 bits, contents of the disk before, schedules and kill points", "why_tests_cant": "Which accesses of two programs interleave is up to the scheduler; a test sees one order, and usually one in which nothing goes wrong.", "anchors": ["proof_of_space/src/proof_of_space/pospace.rs:pospace", "proof_of_space/src/proof_of_space/prover.rs:prepare_space", "proof_of_space/src/proof_of_space/prover.rs:mark_space", "proof_of_space/src/proof_of_space/prover.rs:response_1", "proof_of_space/src/proof_of_space/pospace.rs:test_pospace"]}
{"id": "C121", "title": "runs that seal or unseal one file at the same time", "statement": "Any number of runs that seal or unseal the same padded file at the same time, with the key of its unit size and any ivs, never panic, leave the length of the file, the bytes after its blocks and every other file alone, and keep every unit below the key, in every schedule and wherever runs are killed; a sealing run that ends returns a 32-byte id for each block. Each unit is at every moment what it was at the start after whole passes only (a pass is one mask and delay, or one undoing, per sealing round, of the kinds that the runs do), and after at least one pass once some run has ended. Runs that seal one after the other and unseal in the opposite order give the file back, if no mask makes a unit zero; unsealing in the order of sealing does not, though every run reports success. Two sealing runs that overlap and both report success can leave a file that neither alone and neither order of the two leaves.", "quantifier": "all numbers of sealing and unsealing runs, ivs, hash functions of 32 bytes, supported parameters, sealable files, schedules and kill points", "why_tests_cant": "A test runs one order of the accesses of two programs, usually one after the other; the mixed file is only noticed when it has to be restored.", "anchors": ["proof_of_storage/src/proof_of_storage/prover.rs:seal", "proof_of_storage/src/proof_of_storage/prover.rs:unseal", "proof_of_storage/src/proof_of_storage/postorage.rs:seal_and_unseal"]}
{"id": "C122", "title": "how many files sealing cannot give back", "statement": "Call a file full if it has exactly the blocks that sealing works on and every unit is a number below the key. With n blocks of m units there are key^(n m) full files, and for every hash function and iv at most n m rounds key^(n m - 1) of them are files whose sealing applies the delay function to 0; so, with the random long dependencies, at most that many do not come back from sealing and unsealing: a share of n m rounds in key. With the shipped parameters this is fewer than one in 2^490. It does happen: whatever follows the first unit, some value of the first unit makes sealing meet a zero.", "quantifier": "all hash functions of 32 bytes, ivs, supported parameters, sound keys and sets of full files", "why_tests_cant": "The files that are lost are far too rare for any test to meet and the claim counts over all files.", "anchors": ["proof_of_storage/src/proof_of_storage/prover.rs:seal", "proof_of_storage/src/proof_of_storage/prover.rs:unseal", "proof_of_storage/src/vde/sloth.rs:sloth"]}
{"id": "C123", "title": "debug and release builds", "statement": "Whatever the debug build computes without a panic the release build computes too: padding, sealing, unsealing, compressing, the Merkle tree of a file, preparing and checking a response one by one, together or in parallel, whole storage runs that pass their checks, preparing, marking and answering a space, drawing challenges and the comparison circuit, for every input and with 64-bit file offsets. With settings that the debug build supports both builds seal and unseal every file alike, panics included, and so do whole space runs and spaces of up to 58 bits. The converse fails: with the second deterministic rule for short dependencies the debug build can neither seal nor unseal any file, while the release build seals files and gives them back.", "quantifier": "all files, parameters, keys, ivs, hash functions, responses, schedules, fields and challenges", "why_tests_cant": "A test suite is run in one build, usually debug, while the program is used in the other; agreement on all inputs cannot be tested.", "anchors": ["proof_of_storage/src/proof_of_storage/depend.rs:short_mode_2", "proof_of_storage/src/proof_of_storage/prover.rs:seal", "proof_of_storage/src/proof_of_storage/verifier.rs:batch_unseal", "proof_of_space/src/proof_of_space/prover.rs:mark_space", "proof_of_space/src/proof_of_space/convert.rs:bits_to_usize"]}
{"id": "C124", "title": "unsealing with another number of delay rounds", "statement": "For every prime key = 3 mod 4 and d > 0 at most 4^d of the numbers 1..key-1 come out of d rounds of the delay function as they went in, and these are the numbers on which t and t + d rounds agree. A sealed file in whose sealing no masked unit was 0 comes back from unsealing with another number of delay rounds if both numbers of rounds agree on everything the delay function was applied to, and with one round of sealing only then. So with one round of sealing and d delay rounds too many or too few at most 4^(d n m) of the key^(n m) full files of n blocks with m units come back, and at most n m key^(n m - 1) more whose sealing meets a zero. It is not always noticed: there is a file that sealing leaves as it is with any number of delay rounds. The name of the delay function among the parameters has no effect on the sealed or unsealed file at all.", "quantifier": "all prime keys = 3 mod 4, numbers of rounds, hash functions, ivs, parameters and files (one round of sealing for the converse and the counts)", "why_tests_cant": "Counting the files for which a wrong round count goes unnoticed ranges over all files and all hash functions.", "anchors": ["proof_of_storage/src/vde/rug_sloth.rs:sloth", "proof_of_storage/src/vde/rug_sloth.rs:sloth_inv", "proof_of_storage/src/vde/rug_vde.rs:vde", "proof_of_storage/src/vde/rug_vde.rs:vde_inv", "proof_of_storage/src/proof_of_storage/prover.rs:seal", "proof_of_storage/src/proof_of_storage/prover.rs:unseal", "proof_of_storage/src/proof_of_storage/postorage.rs:PosPara"]}
{"id": "C125", "title": "unsealing with fewer rounds of sealing", "statement": "With random long dependencies, unsealing a file with fewer rounds than it was sealed with (no masked unit having been 0) succeeds and gives a file of the same length in which every block is the block as it was after the remaining rounds of its sealing; sealing that file with the fewer rounds gives the sealed file again, so unsealing with all rounds then gives the data. Going on to unseal the remaining rounds does not give the data in general. With no rounds sealing and unsealing leave every file as it is.", "quantifier": "all hash functions, prime keys = 3 mod 4, ivs, parameters, files and smaller numbers of rounds", "why_tests_cant": "What a mistaken run leaves behind and whether it can be undone depends on the file, the hash and the numbers of rounds.", "anchors": ["proof_of_storage/src/proof_of_storage/prover.rs:seal", "proof_of_storage/src/proof_of_storage/prover.rs:unseal", "proof_of_storage/src/proof_of_storage/postorage.rs:PosPara"]}
{"id": "C126", "title": "how many files sealing leaves as they are", "statement": "With one round of sealing and t > 0 rounds of the delay function, for every hash function, iv and dependency mode that does not panic, at most (4^t + n m) key^(n m - 1) of the key^(n m) full files of n blocks with m units are left as they are by sealing: a share of 4^t + n m in key. There are such files.", "quantifier": "all hash functions, prime keys = 3 mod 4, ivs, parameters with one round of sealing and files", "why_tests_cant": "Counting the files that sealing does not change ranges over all files and hash functions.", "anchors": ["proof_of_storage/src/proof_of_storage/prover.rs:seal", "proof_of_storage/src/vde/rug_sloth.rs:sloth", "proof_of_storage/src/vde/rug_vde.rs:vde"]}
{"id": "C127", "title": "when two ivs give the same sealed file", "statement": "With one round of sealing and no masked unit equal to 0, sealing a file with two ivs gives the same sealed file exactly when the hash of (the first unit's dependencies followed by the iv) is the same for both (equal hashes give equal sealed files also when a 0 is met); so two different ivs with the same sealed file give a collision of the hash. Sealing does not by itself separate ivs: with a weak hash two ivs can give the same sealed file.", "quantifier": "all hash functions, prime keys = 3 mod 4, pairs of ivs, dependency modes that do not panic and files", "why_tests_cant": "Whether replicas under different ivs are different files ranges over all files, ivs and hash functions.", "anchors": ["proof_of_storage/src/proof_of_storage/prover.rs:seal", "proof_of_storage/src/proof_of_storage/prover.rs:prepare_params", "proof_of_storage/src/vde/rug_vde.rs:vde"]}
