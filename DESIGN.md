# Design of the Rocq model of Libra

Source: /repo (C++, pinned commit), read as text, never built. All Coq files are in `rocq/theories`.

## Approach

* The C++ code is modelled function by function as total, computable Gallina functions. Each definition cites file and lines.
* Machine integers are `Z` with explicit wraps (`mod 2^64`, `mod 2^128`). The limb structures `u256b`, `u512b` and `field_element`
  are modelled limb by limb; the protocol code (provers, verifiers) computes on these limb structures, so a theorem about the protocol
  is a theorem about the carry chains and the Barrett reduction too.
* Arrays are lists; an access outside the list is the distinct outcome `UB`. `assert` failures, `exit`, and non-termination are distinct
  outcomes too (`Base.v`: `outcome`). Loops are `for`-combinators with a Hoare-style invariant rule.
* Mathematical side: `F` (`Fp.v`) is the ring Z/p with Leibniz equality; sums over boolean cubes, equality weights and multilinear
  extensions are defined there independently of the code (`Spec*.v`).
* A relation `rep x a` says limb value `x` is reduced and represents `a : F`. Each code function gets a lemma in these terms.
* Calls to outside libraries: `rand()`, GMP big integers (modelled by `Z`), the pairing library (modelled as an ideal bilinear group of
  order p: elements are discrete logarithms, see `Vpd*.v`), the AES instruction (a function argument of the hash, so theorems hold for every cipher), file IO (token lists).

## Trusted base

* Coq 8.16.1 kernel (also `vm_compute`), standard library only.
* `Print Assumptions` of every theorem in `Props*.v` is printed on build; target: "Closed under the global context" for all.
* The reading of C++ into Gallina documented by the citations: 64-bit `unsigned long long`, 128-bit `__uint128_t`, 32-bit `int`,
  glibc `RAND_MAX = 2^31-1`.

## Per property

| id | what is modelled | how |
|----|------------------|-----|
| C01-C04, C06 | limb arithmetic of prime_field.cpp | proofs over Z (carry case analysis, nia/lia) |
| C05, C13 | Barrett `%`, constants, tables | quotient error bound; constants by computation; primality by a Pocklington certificate |
| C07, C08, C09, C10, C11, C12 | field_element, constructors, string/bit conversions, random | refinement to Z mod p; induction over strings/bits; refutations by witness |
| C14 | polynomial.cpp | ring identities through `rep` |
| C15-C17 | zk read_circuit over token lists (`Loader.v`), zk evaluate (`ZkEval.v`) | `SpecLoader.v` says which token lists are well-formed and what circuit they denote; the loader returns iff well-formed (`LoaderProofs.v`); evaluation of gates of known types is a value or undefined, so a short layer makes it undefined (`LoadedUb.v`); refutations by witness |
| C18 | evaluate | induction over layers with an array invariant |
| C19-C21 | V_res, V_in, beta tables, direct_relay | loop invariants, refinement to MLE / eq weights |
| C22, C23 | verifier predicates | linearity over gates; refutation for sum gates at block ends |
| C24, C25 | fast-track prover and verifier | sum-check invariant over rounds and layers |
| C26 | verifier against arbitrary messages | root counting over F (needs primality); refutation of the whole protocol |
| C27-C31 | zk prover / verifier with masks, transcript and VPD calls (`ZkProver.v`, `ZkVerifier.v`) | as C24/C25 plus mask algebra (`Zk*Proofs.v`, `ZkComplete.v`); C29 by an explicit cheating prover (`ZkCheat.v`); C30 joins loader and protocol (`ZkLoaded.v`); C31 counts masks by bijections (`ZkFacts.v`) |
| C32-C37 | three VPD schemes over an ideal bilinear group | polynomial identities, induction over variables |
| C38-C41 | transcript.h, my_hhash.h | induction over message lists; AES abstract |
| C42 | matrix-multiplication generators (`Gen.v`: bin/gen.cpp modes 2 and 4, tests/matmul/gen.cpp) | printed files as token lists; loops flattened to index arithmetic, induction over tree depth; joined with the loader and the zk protocol (`GenProofs.v`) |
| C43 | verification equations of the VPD schemes | root counting for polynomials in several variables (`VpdSound.v`) |
| C44 | zk verifier against provers whose mask announcements are true (`ZkIdeal.v`: `true_masks` wraps any prover) | a generic sum-check game (`SumGame.v`), one layer (`ZkSoundLayer.v`, `ZkSoundTrue.v`), induction over layers (`ZkSoundUpper.v`) |
| C45 | zk verifier, arbitrary prover | inversion of an accepting run (`ZkAccept.v`) |
| C46 | fast-track loader and `main` (`FastLoader.v`) | iff by induction over gates and layers against `SpecFastLoader.v` (`FastLoaderProofs.v`), complete circuit for files in order (`FastLoadedProofs.v`), witnesses for the bad files |
| C47 | circuit compiler of the SHA-256 test (`Program.v`, `Compiler.v`) | inversion of a successful compilation: graph, levels, relays and layers give a placement of every variable (`CompilerMaps.v` to `CompilerShape.v`), wiring (`CompilerWiring.v`), printed files as a loader description (`CompilerFile.v`), values by induction over levels (`CompilerCircuit.v`), against the meaning of programs in `SpecCompiler.v`; witnesses for the false claims |
| C48 | totality of the circuit compiler (`Compiler.v`) | termination of the level walk by a potential, levels as longest paths (`CompilerOrder.v`), relay insertion, layers and padding never fail (`CompilerTotal.v`), wiring fills every place (`CompilerFills.v`), printing (`CompilerDone.v`), existence and uniqueness of levels (`CompilerEnd.v`); then C47 |
| C49 | the program generator (`ShaGen.v`) against FIPS 180-4 (`SpecSha.v`, checked on the test vector "abc") | words as bit lists (`ShaBits.v`); partial-correctness triples for the generator, with the written lines as hypotheses (`ShaSem.v`); all tests of a block are zero iff integer equations hold (`ShaBlock.v`); from the equations to `compress` (`ShaMain.v`); shape by a verified checker with level map, run on the generated program (`ShaCheck.v`); honest witness (`ShaProgram.v`) |
| C50 | the Merkle wiring generator (`MerkleGen.v`) against `merkle_root` and `wired` (`SpecMerkle.v`) | closed form of the addresses, loop invariant over layers (`MerkleShape.v`); soundness by induction over layers from C49, honest values of all variables for completeness (`MerkleProofs.v`); runs of the compiled circuit (`MerkleRuns.v`); the pipeline from C48 |
| C51 | the Lanczos generator (`LanczosGen.v`) and the Lanczos variant of the compiler (`Compiler.v`) against `lanczos` (`SpecLanczos.v`) | triples for shape, values, and levels with relays of the written lines, addition tree by halving with a potential for the odd element (`LanczosProgram.v`); closed form of the wiring (`LanczosWiring.v`); variables on the highest level are circuit outputs (`CompilerOutputs.v`); the pipeline from C48; an indicator image for the coefficients |
| C52 | a recorder around the prover interface (`ZkView.v`) run by the zk verifier's procedure on a challenge tape | the numbers of a layer and of a run in closed form (`ZkViewProofs.v`); a mask polynomial that makes up for any difference between two layers with consistent sums (`ZkHide.v`); induction over the layers for two runs at once, and the corrections are inverse to each other (`ZkHideProofs.v`) |
| C53 | the same record with its group elements | every group element in closed form (`ZkGroup.v`); each blinding exponent enters one commitment or witness linearly, with the key's secret as factor, and the other witnesses follow from the checked equations, so a shift of these exponents makes up for the difference (`ZkFull.v`); counting degenerate challenges and exponents (`ZkLikely.v`) |
| C54 | traditional prover, round messages | loop invariants for the gate-by-gate walk: the running weight of a gate is its weight times the equality polynomial of the challenges so far, the table is folded lazily (`TradProver.v`, `TradProofs.v`, `TradPhase.v`); sums over gates regrouped by wire and matched with the sumcheck theory of C24 (`TradVerifierProofs.v`) |
| C55 | traditional track, completeness | invariant on verifier and prover state per layer, using C54; refutation by computation (`TradVerifier.v`, `TradVerifierProofs.v`) |
| C56 | traditional track, soundness | per-layer counting of challenges with the round argument of C26, now down to layer 0, where the verifier's own input check decides (`TradSound.v`); lying prover by simulation of the honest run |
| C57 | block prover, round messages | tables over pairs (block, gate) folded in the block coordinate (`BcProver.v`, `BcPhase0.v`); phases 1 and 2 reuse the gate walk of C54, scaled by the equality factor (`BcPhase.v`, `BcMessages.v`) |
| C58 | block track, completeness | invariant on verifier and prover state per layer, using C57 (`BcVerifier.v`, `BcVerifierProofs.v`); refutations by computation |
| C59 | block track, soundness as written | refuted: the scaling prover, proved by the invariant of C58 with a factor on the claim of the output layer (`BcScale.v`) |
| C60 | block track, soundness repaired | cubic round lemma for the block phase, the rounds of C56 for the other two, challenges reordered before counting (`BcSound0.v`, `BcSound.v`) |
| C61 | multi-threaded V_res | threads as trees of reads and writes, all interleavings; footprints disjoint, so every execution equals the threads in turn (`Conc.v`, `ParaProver.v`, `ParaProofs.v`) |
| C62 | multi-threaded phase-1 tables | positive: per-thread invariants and disjoint footprints; negative: two unavoidable conflicting accesses (`ParaPhase1.v`, `ParaInit.v`, `ParaWitness.v`) |
| C63 | multi-threaded phase-2 tables | unavoidable race on `beta_u` when a gate crosses slices; right tables in all executions for aligned layers with at most three additions per right input (accumulator and counter invariant); witness of an unreduced entry (`ParaUpdate.v`, `ParaWitness.v`, `ParaPhase2.v`) |
| C64 | multi-threaded rounds | footprints and per-thread invariants; underflow characterised with the congruence of the reduction beyond its exact range (`ParaUpdate.v`, `ModWrap.v`) |
| C65 | stand-alone commitment, completeness | loop invariants over key levels, quotients and windows; `mle_quotients` divides by the linear factors (`MvTest.v`, `MvTestProofs.v`, `MvTestOpen.v`) |
| C66 | stand-alone commitment, soundness | acceptance as an equation; root counting in each coordinate of the secret (`PropsMv.v`, `VpdSound.v`) |
| C67 | traditional program, file to verdict | loop invariants over tokens, both directions; layer facts of an in-order file feed C55 (`TradLoader.v`, `SpecTradLoader.v`, `TradLoaderProofs.v`, `TradLoadedProofs.v`); refutations by computation |
| C68 | block program, file to verdict | the block loader simulated by the traditional one on every block; C58; the verifier's result does not depend on the tail of the announced row (`TradLoadedProofs.v`) |
| C69 | loader of the multi-threaded track | loop invariants over tokens as for C67, with the pushes into the maps; gate lists as permutations of the numbered gates (`ParaVerifier.v`, `SpecParaLoader.v`, `ParaLoaderProofs.v`) |
| C70 | verifier of the multi-threaded track | equality with the traditional verifier for every prover, then C55 and C56 (`ParaVerifierProofs.v`) |
| C71 | messages of the multi-threaded rounds | the threads' sums as a pure function of the tables, lazy bounds in units of p^2 between reductions, the reduction up to 6 p^2 congruent and below 2 p (`ModNear.v`, `ParaMessages.v`) |
| C72 | remaining generator modes | printed tokens = tokens of a description with equal middle layers; loader iff, evaluation and completeness of described circuits; values by induction on the layers; token injectivity for the refused files (`GenModes.v`, `GenModesProofs.v`) |
| C73 | depth computation of parser.cpp | linked lists as arrays, depth-first search with a postcondition (kept marks, path lengths, closure, maximum) by induction on the recursion bound; numbering injective on plain files; exact successor lists and search of a chain family for the unbounded error (`Depth.v`, `DepthProofs.v`, `DepthChain.v`) |
| C74 | tests/mm.cpp | integers with truncating remainder; tables by induction on the coordinates, tower of pairwise sums for the addition layers, index invariants for the three round loops, any outcome of a check but the last is a value or undefined (`Mm.v`, `MmProofs.v`) |
| C75 | bin/gen_lanczos.py (`LanczosPrint.v`) against `lanczos` (`SpecLanczos.v`) | the printed integers are the tokens of a four-layer description with closed-form gates (the running coefficient number by induction along a row), then the loader, the run and the gate values as for C72; indicator of the last column for the refutation (`LanczosPrintProofs.v`) |

Files: `Spec*.v` hold the vocabulary of the statements, `Props*.v` the statements with their proofs by reference (one block per
property, with an Example meeting the hypotheses and `Print Assumptions`), `*Proofs.v` the proofs; the remaining files are the model.
`FastCheat.v` is the cheating prover that refutes whole-protocol soundness of the fast track, `Count.v` defines "at most a
fraction k/p of challenge vectors" (`few`), `SoundProofs.v` the soundness of the reduction above the copy layer and `RoundProofs.v` the
sum-check rounds as polynomials.

### The ideal bilinear group

The VPD code uses the curve library only through addition, subtraction, multiplication by an integer, the pairing and equality.
All three groups are cyclic of the same prime order p, so fixing generators g1, g2 and e(g2, g1) gives isomorphisms to Z/p under which
the pairing is multiplication. `VpdGroup.v` takes these residues as the groups. Every equation between group elements in the code
holds iff it holds of the residues, so completeness and exact acceptance conditions carry over. What this does not
model: hardness assumptions (a prover that can take discrete logarithms is not excluded; C43 restricts the prover to
combinations of key elements instead), encodings of points, and the library's own correctness.

### Threads

`prover_fast_para_track.cpp` is the only file that starts threads: always four, all joined before the next step, with no other synchronisation.
`Conc.v` models a thread as a tree of reads and writes of array cells and an execution as an interleaving of single accesses. Two
accesses to one cell by different threads of the same start/join section, one of them a write, are a race; a race or an access outside
the allocated cells is undefined behaviour, as in C++. That the interleavings describe all executions of race-free C++ programs (the
DRF guarantee of the C++ memory model) is part of the trusted base. The Makefile rule of this prover is commented out at the pinned commit.

Anything not proved in full is listed in MANIFEST.json as `partial`, with the missing part in the note.
Properties of the C++ found false are proved false of the model (`..._refuted`) with a witness, and the strongest true variant is proved.

## Not modelled

Timing, logging, memory release, the text printed by the loaders of the traditional track, `read_circuit_from_string` (never called), regular-expression matching of lines in the SHA-256 compiler and in `parser.cpp`, the floating-point computation of the Lanczos coefficients (a parameter), the 4-round and randomized-zero-test modes of the SHA-256 generator, the elliptic-curve library itself, I/O errors. `parser_lanczos.cpp`, the top-level `parser_sha.cpp` and `parser_sha_data_parallel.cpp` (older copies of the compiler in `tests/SHA256`), and what follows the checks of `sum_check_mm` in `tests/mm.cpp`, never reached (stand-alone tools that share no code with the provers). Not compilable at the pinned commit and so without behaviour to model: the slow track, `bin/gen_SHA256_merkle.cpp`, and `ClogC.cpp` (it calls a `read_circuit` that is defined nowhere). `log2` and `pow` on doubles in the multivariate test are taken as exact.
