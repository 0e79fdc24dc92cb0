{"id": "C01", "title": "256-bit addition and multiplication wrap exactly", "statement": "For any two 256-bit integers, operator+ and operator* of u256b return the mathematical sum / product modulo 2^256, whatever carries occur between the 64/64/128-bit limbs.", "quantifier": "all pairs of u256b values", "why_tests_cant": "2^512 operand pairs; the bugs such code has are at single carry patterns (e.g. middle limb equal to 2^64-1 with an incoming carry).", "anchors": ["src/linear_gkr/prime_field.cpp:u256b::operator+", "src/linear_gkr/prime_field.cpp:u256b::operator*"]}
{"id": "C02", "title": "256-bit subtraction is off by one", "statement": "The intended claim, that operator- of u256b returns the difference modulo 2^256, is false. For any two 256-bit integers it returns the difference minus one modulo 2^256 (the two's complement is taken without adding one), so it is never the difference.", "quantifier": "all pairs of u256b values", "why_tests_cant": "No caller in the repository exercises it, so no end-to-end test can reveal its behaviour. (Found false: it returns a-b-1.)", "anchors": ["src/linear_gkr/prime_field.cpp:u256b::operator-"]}
{"id": "C03", "title": "512-bit addition and subtraction wrap exactly", "statement": "After prime_field::init, u512b operator+ and operator- return the sum / difference modulo 2^512 for any two 512-bit values; before init the subtraction is off by one.", "quantifier": "all pairs of u512b values, both initialisation states", "why_tests_cant": "2^1024 operand pairs and limb-boundary carries.", "anchors": ["src/linear_gkr/prime_field.cpp:u512b::operator+", "src/linear_gkr/prime_field.cpp:u512b::operator-", "src/linear_gkr/prime_field.cpp:init"]}
{"id": "C04", "title": "512-bit product of 256-bit operands is exact", "statement": "u512b operator* returns the full integer product whenever both operands are below 2^256; operands at or above 2^256 silently lose their upper half.", "quantifier": "all pairs of u512b values below 2^256 (and a witness above)", "why_tests_cant": "2^512 operand pairs; carry chains across four 128x128 partial products.", "anchors": ["src/linear_gkr/prime_field.cpp:mul_no_hi", "src/linear_gkr/prime_field.cpp:u512b::operator*"]}
{"id": "C05", "title": "Modular reduction is correct on every value the library feeds it", "statement": "After init with the library's modulus p, u512b operator% returns exactly x mod p for every x < 2^508, which covers sums of two products of reduced elements plus small terms; above 2^508 the result can be wrong.", "quantifier": "all u512b values below 2^508 (and a witness above)", "why_tests_cant": "Barrett reduction errors show up only for rare quotients; the admissible input range is not visible in any test.", "anchors": ["src/linear_gkr/prime_field.cpp:u512b::operator%", "src/linear_gkr/prime_field.cpp:my_factor"]}
{"id": "C06", "title": "Comparison operators are the numeric order", "statement": "The comparison operators of u256b (<=, <, >, !=) and u512b (<, >, >=, !=) decide exactly the numeric comparison of the represented integers.", "quantifier": "all pairs of u256b and u512b values", "why_tests_cant": "2^512 / 2^1024 pairs; limb-lexicographic mistakes only matter for ties in upper limbs.", "anchors": ["src/linear_gkr/prime_field.cpp:u256b::operator<=", "src/linear_gkr/prime_field.cpp:u512b::operator>="]}
{"id": "C07", "title": "Field operations are arithmetic modulo p and stay reduced", "statement": "For reduced operands, field_element +, -, * return the reduced representative of the sum, difference, product modulo p, and == / != decide equality in the field.", "quantifier": "all pairs of reduced field elements", "why_tests_cant": "p is a 254-bit number; every later protocol step relies on closure for all elements.", "anchors": ["src/linear_gkr/prime_field.cpp:field_element::operator+", "src/linear_gkr/prime_field.cpp:field_element::operator-", "src/linear_gkr/prime_field.cpp:field_element::operator*", "src/linear_gkr/prime_field.cpp:field_element::operator=="]}
{"id": "C08", "title": "Integer conversion into the field", "statement": "field_element(int) of a non-negative int is that integer. The intended claim for a negative int -k, that it is the field element p-k, is false for every negative int: the result is 2^64-k.", "quantifier": "all 32-bit ints", "why_tests_cant": "A test on a few positive numbers passes; the negative half behaves differently. (Found false for every negative int: it becomes 2^64-k.)", "anchors": ["src/linear_gkr/prime_field.cpp:field_element::field_element(const int)"]}
{"id": "C09", "title": "Decimal strings are parsed to the number they denote", "statement": "Constructing u256b from a decimal string yields its value modulo 2^256, and constructing u512b yields its value, for every digit string whose value is below 2^256 (no leading zeros needed).", "quantifier": "all digit strings of any length", "why_tests_cant": "Strings are unbounded; the u512b parser multiplies with an operator that drops the upper half, so correctness near the size limit needs an argument.", "anchors": ["src/linear_gkr/prime_field.cpp:u256b::u256b(const char*,int,int)", "src/linear_gkr/prime_field.cpp:u512b::u512b(const char*,int,int)", "src/linear_gkr/zk_prover.cpp:from_string"]}
{"id": "C10", "title": "Bit string and big-integer conversions are lossless", "statement": "bit_stream, to_string and to_gmp_class give exactly the binary expansion of a value below 2^256; converting a reduced element to a big integer, printing it in decimal and parsing it back gives the same element; distinct reduced elements have distinct bit streams.", "quantifier": "all field elements (all u512b values with zero upper half)", "why_tests_cant": "2^256 values; each of the 256 positions must be right for every value.", "anchors": ["src/linear_gkr/prime_field.cpp:field_element::to_gmp_class", "src/linear_gkr/prime_field.cpp:field_element::bit_stream", "src/linear_gkr/prime_field.cpp:field_element::to_string"]}
{"id": "C11", "title": "Bit inspection at every position", "statement": "bit_at returns bit i of the value for 0 <= i < 256, and bitLen returns the position after the highest set bit for every nonzero value (and has undefined behaviour for zero). testBit returns bit i for every i below 256 except 64 and 128, where it shifts a word by its own width (undefined behaviour), so the claim for every position is false for testBit.", "quantifier": "all 256-bit values and all bit positions", "why_tests_cant": "2^256 x 256 combinations; out-of-range shifts are undefined behaviour which a test run may mask. (testBit found undefined at 64 and 128; bitLen undefined at 0.)", "anchors": ["src/linear_gkr/prime_field.cpp:u256b::bit_at", "src/linear_gkr/prime_field.cpp:u256b::testBit", "src/linear_gkr/prime_field.cpp:u256b::bitLen", "src/linear_gkr/prime_field.cpp:field_element::bitLen"]}
{"id": "C12", "title": "Random field elements", "statement": "random() returns the reduced field element (a + 2^128 b + 2^256 c) mod p for every three outputs a, b, c of rand(). The intended claim that the sampling can reach every field element is false: some reduced element is never produced.", "quantifier": "all outputs of the C generator (three calls)", "why_tests_cant": "Reachability of all 2^253 elements cannot be sampled. (Found false: at most 2^93 elements are reachable.)", "anchors": ["src/linear_gkr/prime_field.cpp:u512b::random", "src/linear_gkr/prime_field.cpp:random"]}
{"id": "C13", "title": "The hard-coded constants are what the code needs them to be", "statement": "The modulus is prime, the Barrett factor is floor(2^508/p), the hard-coded inverse of two satisfies 2*inv_2 = 1, the hard-coded 2^256 residue is right, and the residue tables built at start-up hold 2^(256+i) mod p and all byte combinations.", "quantifier": "one fixed set of constants; the table entries range over 256 positions and 32x256 bytes", "why_tests_cant": "Primality of a 254-bit number is not testable by examples; protocol soundness relies on the ring being a field.", "anchors": ["src/linear_gkr/prime_field.cpp:init", "src/linear_gkr/prime_field.cpp:preprocess_mod", "src/linear_gkr/zk_prover.cpp:inv_2"]}
{"id": "C14", "title": "Univariate polynomial classes compute polynomial arithmetic", "statement": "For the linear, quadratic, cubic, quadruple and quintuple polynomial classes: eval of a sum is the sum of evals, eval of a product is the product of evals, and eval at x is the polynomial's value at x, all modulo p and with reduced results.", "quantifier": "all reduced coefficients and all evaluation points", "why_tests_cant": "254-bit coefficients; identities must hold at every point.", "anchors": ["src/linear_gkr/polynomial.cpp"]}
{"id": "C15", "title": "The circuit loader accepts exactly the well-formed files", "statement": "The zk circuit loader returns normally on a circuit file and meta file iff they start with the tokens of a description in which gate ids are 0..n-1 in order, layer sizes are between 1 and 2^30, input gates are constants or zero gates with zero operands, operands are 64-bit, every wire of a gate of type other than 3 lies below 2^b for the bit length b of the layer below (the end of a range sum may be 2^b, bit-test gates have equal wires), and the meta lines are consistent; the returned circuit is then the one described: bit length is the least b >= 1 with n <= 2^b, a one-gate layer is padded with a zero gate, a relay layer is inserted above the inputs. The stronger intended claim, that every wire refers to an existing gate of the layer below, is false when that layer's size is not a power of two.", "quantifier": "all circuit and meta files (as token streams)", "why_tests_cant": "Unbounded inputs; acceptance of an ill-formed circuit would cause out-of-bounds memory access later.", "anchors": ["src/linear_gkr/zk_verifier.cpp:zk_verifier::read_circuit"]}
{"id": "C16", "title": "Input constants are cut to 32 bits", "statement": "The intended claim, that the value a circuit file gives for an input gate is the value the protocol uses, is false. The value used is the literal cut to a signed 32-bit integer and then taken modulo 2^64, which equals the literal in the field exactly when it lies in [0, 2^31).", "quantifier": "all 64-bit integers in an input gate", "why_tests_cant": "Only values outside the 32-bit range or below zero differ. (Found false: the 64-bit literal is cut to 32 bits, and negative literals become 2^64-k.)", "anchors": ["src/linear_gkr/zk_verifier.cpp:zk_verifier::read_circuit", "include/linear_gkr/circuit_fast_track.h:gate", "src/linear_gkr/zk_prover.cpp:zk_prover::evaluate"]}
{"id": "C17", "title": "Which accepted circuits can be evaluated without undefined behaviour", "statement": "The intended claim, that loading terminates and every accepted circuit is evaluated within bounds, is false. If all layer sizes of an accepted circuit are powers of two, evaluation returns or stops at an assertion and never reads out of bounds; an accepted circuit whose evaluation returns has only power-of-two layers; if the input layer's size is not a power of two evaluation reads past its end; and any file with a layer of zero gates (after well-formed layers) makes the loader loop forever. If all gates have types the evaluation knows, evaluation of a circuit with a layer of another size is undefined, whichever layer it is.", "quantifier": "all circuit files", "why_tests_cant": "Out-of-bounds reads and non-termination depend on layer sizes a test may not use. (Found false: an empty layer loops forever and a layer whose size is not a power of two is read past its end.)", "anchors": ["src/linear_gkr/zk_verifier.cpp:zk_verifier::read_circuit", "src/linear_gkr/zk_prover.cpp:zk_prover::evaluate"]}
{"id": "C18", "title": "Circuit evaluation implements the gate semantics", "statement": "For every well-formed circuit, evaluate() computes at each gate the value its type denotes (sum, product, zero, constant, relay, range sum, 1-x, x-y, x+y-2xy, y-xy, weighted bit sum, x(1-y)) from the values of the previous layer, all reduced, without undefined behaviour.", "quantifier": "all well-formed layered circuits of any depth, width and gate mix", "why_tests_cant": "Circuits are unbounded; aliasing between layers or wrong index handling shows only on particular wirings.", "anchors": ["src/linear_gkr/zk_prover.cpp:zk_prover::evaluate", "src/linear_gkr/prover_fast_track.cpp:prover::evaluate"]}
{"id": "C19", "title": "Output and input evaluation is the multilinear extension", "statement": "V_res and V_in return, for every array of 2^n reduced values and every point r, the value at r of the unique multilinear polynomial that agrees with the array on 0/1 points.", "quantifier": "all n, all arrays of 2^n elements and all points in F^n", "why_tests_cant": "Unbounded n; a test with random points only checks one point of one array.", "anchors": ["src/linear_gkr/zk_prover.cpp:zk_prover::V_res", "src/linear_gkr/zk_verifier.cpp:zk_verifier::V_in", "src/linear_gkr/prover_fast_track.cpp:prover::V_res", "src/linear_gkr/verifier_fast_track.cpp:verifier::V_in"]}
{"id": "C20", "title": "Equality tables", "statement": "The tables the prover and the verifier build from a random point hold, at every index x, the equality weight prod_j (x_j r_j + (1-x_j)(1-r_j)) (times alpha or beta where applicable); the half tables multiply to the full weight, also for odd bit lengths.", "quantifier": "all bit lengths and all points", "why_tests_cant": "In-place doubling loops; errors appear only for particular lengths (odd split, length 1).", "anchors": ["src/linear_gkr/prover_fast_track.cpp:prover::sumcheck_phase1_init", "src/linear_gkr/verifier_fast_track.cpp:verifier::beta_init", "src/linear_gkr/zk_verifier.cpp:zk_verifier::beta_init"]}
{"id": "C21", "title": "Direct relay value", "statement": "For layer 1, direct_relay returns prod_j (g_j u_j + (1-g_j)(1-u_j)); for other layers 0.", "quantifier": "all points of equal length", "why_tests_cant": "All points and lengths.", "anchors": ["src/linear_gkr/zk_verifier.cpp:zk_verifier::direct_relay", "src/linear_gkr/verifier_fast_track.cpp:verifier::direct_relay"]}
{"id": "C22", "title": "Verifier wiring predicates are the multilinear extensions of the wiring", "statement": "For every layer and every gate type the verifier's predicate value at (r_0,r_1,r_u,r_v) equals the sum over gates of that type of the combined equality weights of the gate's output position and of its two input positions (range gates: summed over the range, weighted by powers of two where applicable).", "quantifier": "all well-formed layers, all points", "why_tests_cant": "Unbounded layer sizes; a wrong predicate makes the verifier accept a different circuit than the one it was given.", "anchors": ["src/linear_gkr/verifier_fast_track.cpp:verifier::add,mult,not_gate,minus_gate,xor_gate,NAAB_gate,sum_gate,relay_gate", "src/linear_gkr/zk_verifier.cpp:zk_verifier::predicates"]}
{"id": "C23", "title": "Data-parallel shortcut agrees with the full predicate", "statement": "For a layer whose gates repeat one block, with every range sum ending before the last wire position of its block below, all fourteen predicate values computed from the first block and the block-prefix weights equal the values computed from the whole layer. Without the condition on range sums the claim is false: for a range sum over a whole block the end of the range is the start of the next block and the shortcut value is wrong.", "quantifier": "all block sizes, repetition counts, gate mixes and points", "why_tests_cant": "Depends on block boundaries. (Found false for range-sum gates ending at a block boundary.)", "anchors": ["src/linear_gkr/zk_verifier.cpp:zk_verifier::predicates"]}
{"id": "C24", "title": "Prover round polynomials are the true partial sums", "statement": "In each round of each phase the quadratic returned by the fast-track prover is the polynomial obtained by summing the layer's defining expression over all remaining 0/1 variables, given the challenges so far.", "quantifier": "all well-formed circuits, all layers, all rounds, all challenge sequences", "why_tests_cant": "The bookkeeping tables are folded in place round after round; correctness is an invariant over all rounds and sizes.", "anchors": ["src/linear_gkr/prover_fast_track.cpp:prover::sumcheck_phase1_init,sumcheck_phase1_update,sumcheck_phase2_init,sumcheck_phase2_update"]}
{"id": "C25", "title": "Completeness of the non-zk protocol", "statement": "For every well-formed circuit of supported gates and every sequence of random choices, the fast-track verifier accepts the honest prover and no undefined behaviour occurs.", "quantifier": "all well-formed circuits (any depth/size/gate mix), all verifier randomness", "why_tests_cant": "A test run checks one circuit and one seed.", "anchors": ["src/linear_gkr/verifier_fast_track.cpp:verifier::verify", "src/linear_gkr/prover_fast_track.cpp"]}
{"id": "C26", "title": "Soundness of the non-zk verifier", "statement": "The intended claim, that the fast-track verifier rejects a wrong output except with small probability, is false: for any circuit with a copy layer and any other input vector, some prover gets the output of the circuit on that other input accepted for every choice of randomness (at layer 1 the second-phase point is forced to zero, so its round polynomials are unconstrained). What holds, for every prover whose messages are reduced field elements and a verifier that evaluates the claimed output itself: if the claimed output is wrong then the run reaches layer 1 with a true claim only for a fraction at most k/p of the challenge vectors, where k is the output bit length plus 4b+1 for every layer of bit length b below a layer above layer 1; and per layer a wrong claim is turned into a true one with fraction at most (4b+1)/p.", "quantifier": "all circuits, all prover strategies, all challenges", "why_tests_cant": "Quantifies over all cheating provers. (Found false for the protocol as coded: the last layer's second phase uses the fixed challenge 0, so any claim can be passed; the per-layer statement is provable for the other layers.)", "anchors": ["src/linear_gkr/verifier_fast_track.cpp:verifier::verify"]}
{"id": "C27", "title": "The announced sum of the masking polynomial is right", "statement": "The value announced as the sum of the masking polynomial equals its sum over all 0/1 assignments of all its variables, for every number of variables.", "quantifier": "all bit lengths and coefficients", "why_tests_cant": "The constant term is counted by an unusual double-add; correctness for all lengths needs induction.", "anchors": ["src/linear_gkr/zk_prover.cpp:zk_prover::generate_maskpoly_pre_rho,generate_maskpoly_after_rho"]}
{"id": "C28", "title": "Completeness of the zero-knowledge protocol", "statement": "For every well-formed circuit of supported gates, every mask and every sequence of challenges, the zk verifier's algebraic checks all succeed against the honest prover.", "quantifier": "all well-formed circuits, all masks, all randomness", "why_tests_cant": "A run checks one circuit and one seed; the degree-5 correction terms in the last rounds must cancel for every mask.", "anchors": ["src/linear_gkr/zk_verifier.cpp:zk_verifier::verify", "src/linear_gkr/zk_prover.cpp"]}
{"id": "C29", "title": "Soundness of the zk verifier against a false output", "statement": "The intended claim, that a prover announcing a wrong circuit output is rejected except for few challenge values, is false. The announced sum of the masking polynomial is used without being checked against its commitment, so for every well-formed circuit of supported gates and every announced output vector there is a prover whose run is accepted, for every cipher, group encoding and every choice of random values.", "quantifier": "all prover strategies, all challenges", "why_tests_cant": "Quantifies over all cheating provers. (Found false: the announced mask sum is added to the claim unchecked after all challenges are known, so every claim can be passed.)", "anchors": ["src/linear_gkr/zk_verifier.cpp:zk_verifier::verify"]}
{"id": "C30", "title": "Which loaded circuits can be proved", "statement": "The intended claim, that the honest run is accepted for every circuit the loader accepts, is false: a circuit with a layer size that is not a power of two is never accepted, nor need be a circuit with a gate type unknown to the evaluator. The honest run is accepted for every loaded circuit whose layer sizes are powers of two, whose gates above the copy layer have the types of the sum-check, whose block flags describe actual repetitions, and whose transcript stays below 2^31 bits.", "quantifier": "all accepted circuits", "why_tests_cant": "Depends on gate types in inner layers that sample circuits do not use. (Found false: constants and type-4 relays in inner layers evaluate but are never accounted for in the sum-check.)", "anchors": ["src/linear_gkr/zk_verifier.cpp:zk_verifier::read_circuit,verify", "src/linear_gkr/zk_prover.cpp:zk_prover::sumcheck_phase1_init"]}
{"id": "C31", "title": "What the revealed layer values tell", "statement": "In every layer above the copy layer the two values the honest prover reveals are the multilinear extension of the layer below plus a mask that vanishes on 0/1 points. If the vanishing factor is nonzero at a query point, then for any two target values the sets of masks that give them have the same size; the same holds for the two values jointly if the last coordinates of the two points differ. The intended claim for every layer and every pair of points is false: if the last coordinates agree a combination of the two values is free of the mask, and at the copy layer the second revealed value is exactly the first input value of the circuit.", "quantifier": "all circuit values, all query points, all target values", "why_tests_cant": "A statement about the distribution over all masks.", "anchors": ["src/linear_gkr/zk_prover.cpp:zk_prover::generate_maskR,sumcheck_phase1_updatelastbit"]}
{"id": "C32", "title": "Opening of the per-layer mask commitment verifies", "statement": "For every key, every six coefficients, every blinding and every point, the proof produced by the vpdR prover is accepted by its verifier with the value F(r) of the committed polynomial.", "quantifier": "all keys, polynomials, blinding values and points (ideal bilinear group)", "why_tests_cant": "All 254-bit choices; the pairing equation is an identity that must hold for all.", "anchors": ["src/VPD/vpdR.cpp:KeyGen,commit,check_commit,prove,verify"]}
{"id": "C33", "title": "Opening of the sum-check mask commitment verifies", "statement": "For every number of variables d >= 3 (the protocol uses 2n+1 with n >= 1), key, polynomial (quadratic in each variable plus the degree 3-5 terms in variables d/2-1 and d-2), blinding and point, the mask-polynomial VPD accepts the honest proof with the polynomial's value. The claim for every number of variables is false: with two variables an honest proof is rejected.", "quantifier": "all variable counts, keys, polynomials, points", "why_tests_cant": "Unbounded number of variables with special-cased indices.", "anchors": ["src/VPD/vpd_test.cpp:KeyGen,commit,prove,verify"]}
{"id": "C34", "title": "Opening of the input commitment verifies and returns the input's extension", "statement": "For every number of variables and every input vector, the honest opening of the input commitment at r is accepted and the opened value is the multilinear extension of the input at r plus the masking term.", "quantifier": "all n, inputs, keys, points", "why_tests_cant": "Unbounded n; the recursive quotient computation must be exact for every coefficient vector.", "anchors": ["src/VPD/inputvpd.cpp:KeyGen,commit,prove,verify"]}
{"id": "C35", "title": "Evaluation-to-coefficient transform", "statement": "The in-place transform applied to the input before committing turns the table of values on 0/1 points into the coefficient vector of the multilinear polynomial with those values.", "quantifier": "all n >= 1 and all arrays of 2^n reduced values", "why_tests_cant": "In-place butterfly with index reversal; unbounded n.", "anchors": ["src/VPD/inputvpd.cpp:pre_input"]}
{"id": "C36", "title": "Fast exponentiation and multi-exponentiation are exact", "statement": "The table-based exponentiations return the scalar multiple of the base, and the eight-way multi-exponentiation returns the sum of scalar multiples, for every scalar in the supported range.", "quantifier": "all scalars and bases", "why_tests_cant": "2^254 scalars, windows and carry-over positions.", "anchors": ["src/VPD/inputvpd.cpp:pre_exp,g1_exp,g_baby_step,multi_scalar_calc", "src/VPD/vpdR.cpp:pre_exp"]}
{"id": "C37", "title": "Which proof elements an opening verification checks", "statement": "The intended claim, that an opening whose proof elements are not all consistent under the knowledge exponent is rejected, is false for vpdR and for the input commitment: the last element is never compared, so an honest opening stays accepted with any group element in its place. In each of the three schemes the accepted openings are exactly those whose compared elements are consistent (all of them in the mask commitment, all but the last in the other two) and which satisfy the pairing equation.", "quantifier": "all proofs, keys and points", "why_tests_cant": "Quantifies over malformed proofs. (Found false: the last element's companion is never looked at in two of the three schemes, and the companion of the input commitment is never checked.)", "anchors": ["src/VPD/inputvpd.cpp:verify", "src/VPD/vpdR.cpp:verify", "src/linear_gkr/zk_verifier.cpp:zk_verifier::verify"]}
{"id": "C38", "title": "Proof file size is the reported size", "statement": "For every transcript of field elements, group elements and verifier randomness whose serialisation has fewer than 2^31 bits, output_to_file writes exactly the concatenation of the messages (32 little-endian bytes per field element, the bytes of the object per group element, nothing for randomness) and its length equals get_proof_size. With 2^31 bits or more the int size overflows.", "quantifier": "all transcripts", "why_tests_cant": "Transcripts are unbounded sequences.", "anchors": ["include/linear_gkr/transcript.h:proof_transcript"]}
{"id": "C39", "title": "Challenges are reduced, reproducible and defined", "statement": "random(k) returns exactly k reduced field elements and appends them to the transcript, for every non-empty transcript of fewer than 2^31 bits. They are a function of the padded bit stream alone, namely the digests of the chained compression reduced modulo p, and a longer request extends a shorter one. The claim for every transcript is false: on the empty transcript the code reads past the end of an empty vector.", "quantifier": "all transcripts and all k", "why_tests_cant": "Transcripts are unbounded; on an empty transcript the code reads past the end of an empty vector. (The unrestricted statement is false.)", "anchors": ["include/linear_gkr/transcript.h:proof_transcript::random"]}
{"id": "C40", "title": "Fiat-Shamir binding", "statement": "The intended claim, that different transcripts are hashed from different padded inputs and each round challenge is derived from the message of that round, is false. For every cipher the transcripts [x] and [x; 0] give the same challenges; in general two transcripts collide only if one stream is the other followed by fewer than 512 zero bits, and transcripts with the same kinds of messages never collide. In the zero-knowledge verifier the challenges of a layer's rounds do not depend on the round polynomials of that layer.", "quantifier": "all pairs of transcripts", "why_tests_cant": "Quantifies over pairs of transcripts. (Found false: zero padding makes transcripts collide, and the challenges of a layer are drawn before the layer's messages are appended.)", "anchors": ["include/linear_gkr/transcript.h:proof_transcript::random", "src/linear_gkr/zk_verifier.cpp:zk_verifier::verify"]}
{"id": "C41", "title": "What the compression function mixes", "statement": "The intended claim, that each half of the 512-to-256-bit compression depends on the whole input block, is false for every cipher: each output half is a function of one input half. Consequently the upper half of the first digest is a function of the last 256 bits of the padded stream, the upper half of every later digest is a constant, and in a transcript of field elements any two messages that collide under a 128-bit function can be exchanged without changing any challenge; such a pair of different reduced elements exists for every cipher.", "quantifier": "all inputs, all block ciphers", "why_tests_cant": "Quantifies over all pairs of inputs. (Found false: each output half depends on one input half, and from the second challenge on the upper half of the hash is a constant.)", "anchors": ["include/infrastructure/my_hhash.h:my_hash", "include/linear_gkr/transcript.h:proof_transcript::random"]}
{"id": "C42", "title": "Matrix-multiplication circuit generators", "statement": "For every size n = 2^k up to 256 and every sequence of rand() results, the circuit written by the addition-tree generator (mode 2 of bin/gen) is loaded with an all-zero meta file, evaluates to the product of the two matrices, and its honest zk run is accepted. The intended claim for every generator and size is false: from size 512 on the generator overflows an int, the zk loader refuses the meta file that generator writes, and the circuit of the summation-gate generators (mode 4 and tests/matmul/gen) computes, at entry (i,j), the sum over t of a[i*t]*a[t*j] for the row-major entries a of the first matrix, so the second matrix is ignored and for every size some inputs give a wrong product.", "quantifier": "all sizes and all matrices", "why_tests_cant": "Unbounded sizes. (The addition-tree generator is right; the summation-gate generator wires a[i*k]*b[k*j] and is wrong.)", "anchors": ["bin/gen.cpp:mode 2", "tests/matmul/gen.cpp:main"]}
{"id": "C43", "title": "Openings are binding against provers that combine key elements", "statement": "If a prover forms the commitment and all proof elements as linear combinations of the published key elements, with coefficients chosen without knowledge of the secret point, then each of the three commitment schemes accepts a value different from the committed polynomial's value at the opened point for at most a fraction 9/p, 6(d+1)/p or 2(n+1)/p of the secret points.", "quantifier": "all coefficient choices, points, claimed values and numbers of variables; a count over all secret points", "why_tests_cant": "The claim is about every cheating strategy of this kind and a fraction of an astronomically large set of keys.", "anchors": ["src/VPD/vpdR.cpp:179-225", "src/VPD/vpd_test.cpp:240-287", "src/VPD/inputvpd.cpp:379-428"]}
{"id": "C44", "title": "The zk verifier against cheating provers whose announcements are true", "statement": "Against any prover (arbitrary round polynomials, claimed values and proofs), if the mask sum, the mask values and the opened mask values it announces are those of mask polynomials fixed before the layer's challenges, a wrong claim about the masked values of a layer above the copy layer is turned into a true claim about the masked values of the layer below for at most 4b+9 out of p challenges (b = number of index bits of the layer below). If moreover the claimed output is evaluated faithfully, a wrong output reaches the copy layer with a true claim for at most a fraction (lo + sum of these)/p of all challenge vectors, and every accepting run passes through that state.", "quantifier": "all circuits with complete layers, all provers whose announced mask data are true, all claimed outputs; a count over all challenge vectors", "why_tests_cant": "Quantifies over every cheating strategy and an astronomically large set of challenges.", "anchors": ["src/linear_gkr/zk_verifier.cpp:zk_verifier::verify", "src/linear_gkr/zk_prover.cpp"]}
{"id": "C45", "title": "What an accepted zk run has checked", "statement": "For an arbitrary prover, arbitrary circuit and arbitrary challenges: if the zk verifier accepts, then in every layer the round checks were passed, both commitments of the layer passed their knowledge-of-coefficient checks, every opening was accepted at the verifier's challenge points, the final equation of the layer holds between the last round polynomial, the gate predicates and the claimed and opened values, the next claim is the combination of the two claimed values, and the opened value of the input commitment equals the last claim.", "quantifier": "all provers, circuits and challenge functions", "why_tests_cant": "A universally quantified statement about all accepted runs; a test only sees runs of one prover, and a dropped check changes nothing for honest ones.", "anchors": ["src/linear_gkr/zk_verifier.cpp:zk_verifier::verify"]}
{"id": "C46", "title": "Circuit loader of the fast track", "statement": "The fast-track loader returns a circuit exactly for the files whose layers number their gates 0..n-1 in some order (with input gates in the first layer and the last number written below 2^30), and it is the circuit of those gates, with a copy layer inserted and bit lengths taken from the last number written. A file in order with power-of-two layers and wires in range is run to an accepting verdict. The intended claim, that other files are refused, is false: the same gates written in another order load with fewer outputs and are accepted, and wires past the layer below or layers that are no power of two load and then read out of bounds.", "quantifier": "all token sequences and all challenge functions", "why_tests_cant": "The set of accepted files is infinite; the bad ones produce a printed message at most, so a test that only looks at the verdict sees nothing.", "anchors": ["src/linear_gkr/verifier_fast_track.cpp:verifier::read_circuit", "src/linear_gkr/main_fast_track.cpp:main"]}
{"id": "C47", "title": "Circuit compiler of the SHA-256 test", "statement": "Whenever the compiler writes a circuit file and a meta file for a program that assigns each variable once and a wiring file for 2^k runs, the loader takes the files, every input of every run is fed from the wiring, every run of the program has values satisfying all its lines, each variable of each run has a place in the circuit where evaluation puts exactly its value (including types ADD, MUL, XOR, MINUS, NAAB, NOT, BIT and EXPSUM, relays and padding), and the honest zk run is accepted. The broader intended claims are false: outputs of the program below its last level are no outputs of the circuit; a variable numbering that is not topological causes an access out of bounds; EXPSUM over different levels aborts; the numbers of the inputs are ignored; PASS of a passed variable reads another constant; operand numbers lose their high bits; a second assignment silently replaces the first; constants from 2^31 on are replaced by other numbers (C47_constant_refuted); and a number of runs that is no power of two yields files the loader refuses.", "quantifier": "all programs, wiring files, numbers of runs 2^k and sequences of rand()", "why_tests_cant": "The repository compiles one program. A misplaced relay or padding gate shows up only for particular level structures, and the proof of a wrongly compiled circuit still verifies.", "anchors": ["tests/SHA256/parser_sha_data_parallel.cpp:read_circuit", "tests/SHA256/parser_sha_data_parallel.cpp:DAG_to_layered", "tests/SHA256/parser_sha_data_parallel.cpp:read_rdl", "tests/SHA256/parser_sha_data_parallel.cpp:merge_and_output"]}
{"id": "C48", "title": "Which programs the circuit compiler takes", "statement": "For every program in which operands are assigned on earlier lines and have smaller numbers, BIT is applied to one variable, the operands of each EXPSUM lie on one level, and whose gate count (targets plus relays) times 2^k stays in range, and every wiring file with consecutively numbered outputs for 2^k runs, the compiler finishes without an assertion, an access out of bounds or overflow, the depth it writes is that of the program plus three, the loader takes the files, every run's values appear in the evaluated circuit and the honest zk run is accepted. Levels exist and are unique for every such program. BIT of two different variables is refused although the program has a run.", "quantifier": "all ordered regular programs, wiring files, numbers of runs 2^k and sequences of rand()", "why_tests_cant": "The repository compiles one program. Whether the level computation terminates with the right levels, whether relays find their places and whether padding fits depends on the shape of the dependency graph, of which there are infinitely many.", "anchors": ["tests/SHA256/parser_sha_data_parallel.cpp:read_circuit", "tests/SHA256/parser_sha_data_parallel.cpp:DAG_to_layered", "tests/SHA256/parser_sha_data_parallel.cpp:read_rdl", "tests/SHA256/parser_sha_data_parallel.cpp:merge_and_output"]}
{"id": "C49", "title": "The SHA-256 program checks exactly the SHA-256 compression function", "statement": "The generator writes, without a failing assertion, a program of 7226 inputs and 58034 gates on ten levels that meets all conditions of the circuit compiler. In every run of it in which all outputs are zero, with constant 0 zero and K_0..K_63, W_0, H_3 and H_7 in [0, 2^32), all 16 words of the block and all 8 words of the hash value are in [0, 2^32) and Hout is the SHA-256 compression function of FIPS 180-4 of them. Conversely for all words there is such a run. W_0 is not range-checked: two inputs that differ in W_0 by 2^32 give the same hash value.", "quantifier": "all runs of the program over the field, all constants, hash values and blocks", "why_tests_cant": "The program has 7226 field inputs. A run that satisfies all tests with a wrong hash value, for instance through a missing carry or bit test, would need a chosen witness that random tests never hit; the repository has no test of the program against SHA-256 at all.", "anchors": ["tests/SHA256/sha256gen.py:write_64_rounds", "tests/SHA256/sha256gen.py:write_ch", "tests/SHA256/sha256gen.py:write_maj", "tests/SHA256/sha256gen.py:do_addition", "tests/SHA256/sha256gen.py:verify_bits"]}
{"id": "C50", "title": "The Merkle tree wiring ties the blocks to the Merkle root, but the compiled circuit does not enforce it", "statement": "For every n from 1 to 13 the generator writes, without a failing assertion, a wiring file for 2^(n+1) runs of the SHA-256 program that meets all conditions of the circuit compiler, so program and wiring compile and the honest zero-knowledge run on the circuit is accepted. For every n > 0 and all values of the variables of the wiring file: if all outputs of the runs are zero, constant 0 is zero, and K, H_3, H_7 and the first word of each leaf are 32-bit words, then all leaves are words and the root variables hold the Merkle root of the leaves; conversely for all leaves there are such values. But the first words of leaves are not range-checked (two different lists of leaves, one root), no run of a compiled circuit ever has the SHA-256 constants (inputs are random numbers below 2^31), and the verifier accepts circuits whose test outputs are not zero.", "quantifier": "all tree heights (1..13 for compilation), all values of the wiring variables, all random sequences, all runs", "why_tests_cant": "The wiring of 2^(n+1) blocks of 7226 inputs each cannot be checked by running a few trees: a misrouted child or bit shows only for particular values, and the property is about all values, including dishonest ones, and all heights.", "anchors": ["tests/SHA256/sha256gen.py:write_merkle_rdl", "tests/SHA256/sha256gen.py:allocate_input", "tests/SHA256/sha256gen.py:write_64_rounds"]}
{"id": "C51", "title": "The Lanczos test computes a separable filter of the image, but not with the coefficients it is given", "statement": "For every ratio r > 0, every image size np that is a multiple of r and at least 4r, and every list of 2r coefficients, the generator writes both files, and exactly for these. For all values that satisfy the program, its one output is the separable 4r x 4r filter of its inputs. Within the size limit, program and wiring meet all conditions of the Lanczos circuit compiler; if the number of runs (np/r - 3)^2 is a power of two, the compiled circuit loads, output number y + (np/r-3) x (times a stride) is the filter of the window at row r y and column r x of the random image, and the honest zero-knowledge run is accepted. But the coefficients are the stored ones: whenever a coefficient is negative or at least 2^31 there is a 0/1 image whose first output is not the filter with the given coefficients, and this holds for all five circuits of the test.", "quantifier": "all ratios, image sizes and coefficient lists; all images (random sequences); all values satisfying the program; all windows", "why_tests_cant": "The test only times the prover on random images and never compares an output with a filtered image; the layout of windows, the shape of the addition tree for row lengths that are not powers of two, and the effect of the 32-bit truncation depend on sizes and values no finite set of runs covers.", "anchors": ["tests/lanczos/lanczos2.py:print_pws", "tests/lanczos/lanczos2.py:print_rdl", "tests/lanczos/lanczos2.py:filter_coeffs", "tests/lanczos/parser_sha_data_parallel.cpp:read_circuit", "tests/lanczos/parser_sha_data_parallel.cpp:read_rdl"]}
{"id": "C52", "title": "The numbers of a zero-knowledge run hide the input, except its first value", "statement": "Take two inputs of the same circuit that give the same outputs and agree in the first input value, and fix challenges for which, in every layer, the mask factor rho is not 0, the points r_u and (above layer 1) r_v have no coordinate in {0,1}, their last coordinates differ, and the opening point of the next layer's value mask is not 1/2. Then there is a bijection of the prover's mask coefficients under which the honest runs on the two inputs send exactly the same numbers: outputs, sums, all round polynomials, claimed and opened values, and everything the verifier reads from the prover object. So, for uniform masks, these numbers have the same distribution for both inputs. The hypothesis on the first value is needed: in every run, whatever masks and challenges, the 15th number from the end is the first input value, so inputs with equal outputs and different first values never show the same numbers, and the claim that only the outputs are revealed is refuted.", "quantifier": "all layered circuits of the protocol's form, all pairs of inputs, all challenge tapes, all mask coefficients and exponents", "why_tests_cant": "Hiding is a statement about the distribution of the whole record over all masks, for every pair of inputs; runs of the program show one record each and accept equally with broken or absent masking.", "anchors": ["src/linear_gkr/zk_prover.cpp:zk_prover::generate_maskpoly_pre_rho", "src/linear_gkr/zk_prover.cpp:zk_prover::generate_maskR", "src/linear_gkr/zk_prover.cpp:zk_prover::sumcheck_phase1_updatelastbit", "src/linear_gkr/zk_prover.cpp:zk_prover::sumcheck_finalround", "src/linear_gkr/zk_verifier.cpp:zk_verifier::verify"]}
{"id": "C53", "title": "The whole record of a zero-knowledge run, group elements included, hides the input up to its first value", "statement": "For two inputs of the same circuit with the same outputs and the same first input value, and challenges that are not degenerate in the sense of C52, there is a bijection of the prover's whole randomness (mask coefficients, and the exponents used for key secrets and for blinding) under which the honest runs on the two inputs produce the same record: every number sent, every public key, every commitment and every witness of an opening. The bijection ranges over the exponents whose key secret for the blinding variable is nonzero in every key. The excluded challenges and exponents are few: at most a fraction of layer_bad/P and (2d-1)/P of all, with d the number of layers. The record reads no more exponents than the bijection counts.", "quantifier": "all layered circuits of the protocol's form, all pairs of inputs, all challenge tapes, all mask coefficients and exponents", "why_tests_cant": "Hiding is equality of distributions of the full record over all of the prover's randomness; a run shows one record and the verifier accepts equally when a blinding term is dropped or reused.", "anchors": ["src/linear_gkr/zk_prover.cpp:zk_prover::generate_maskpoly_pre_rho", "src/linear_gkr/zk_prover.cpp:zk_prover::generate_maskR", "src/linear_gkr/zk_prover.cpp:zk_prover::prove_R", "src/linear_gkr/zk_prover.cpp:zk_prover::prove_mask", "src/VPD/vpdR.cpp:prove", "src/VPD/inputvpd.cpp:prove"]}
{"id": "C54", "title": "The traditional prover's messages are the partial sums of the layer polynomial", "statement": "In the traditional prover, which walks over all gates in every round and keeps one running weight per gate, the message of each round of phase 1 evaluates at every point to the sum of the layer polynomial over the remaining coordinates of X and all of Y, with the earlier coordinates set to the challenges; in phase 2 the same with X fixed to the challenges of phase 1. The values returned at the end of the layer are those of the previous layer's multilinear extension at the two challenge points, and the prover is then ready for the next layer. Neither phase exhibits undefined behaviour or fails an assertion.", "quantifier": "all layered circuits of addition, multiplication and zero gates, all layers, all challenges, all weights alpha and beta", "why_tests_cant": "The messages are polynomials over a 254-bit field fixed only by sums over exponentially many points; a test compares values at a few challenges.", "anchors": ["src/traditional_gkr/prover_clogc.cpp:prover::sumcheck_phase1_init", "src/traditional_gkr/prover_clogc.cpp:prover::sumcheck_phase1_update", "src/traditional_gkr/prover_clogc.cpp:prover::sumcheck_phase2_init", "src/traditional_gkr/prover_clogc.cpp:prover::sumcheck_phase2_update", "src/traditional_gkr/prover_clogc.cpp:prover::sumcheck_finalize"]}
{"id": "C55", "title": "The traditional verifier accepts the honest traditional prover, except for zero inputs that carry an operand", "statement": "For every circuit of addition, multiplication and zero gates above an input layer of constants and zero gates whose operand is 0, and for every sequence of challenges, the traditional verifier run against the traditional prover terminates without undefined behaviour and accepts. The condition on zero gates in the input layer is needed: the prover stores the operand of such a gate, the verifier's last check uses 0, so with a nonzero operand the honest prover is rejected.", "quantifier": "all layered circuits of this form, all challenges", "why_tests_cant": "Completeness ranges over all circuits and challenges; generated test circuits write zero gates without operand and do not show the disagreement.", "anchors": ["src/traditional_gkr/verifier_traditional.cpp:verifier::verify", "src/traditional_gkr/prover_clogc.cpp:prover::evaluate", "src/traditional_gkr/ClogC.cpp:main"]}
{"id": "C56", "title": "The traditional verifier is sound down to the input if it evaluates the claimed output itself, and not sound as written", "statement": "For an arbitrary prover (any state, any strategy, messages chosen after the earlier challenges) whose claimed output row differs from the circuit's outputs, the traditional verifier accepts for at most a fraction (lo + sum over the layers k below the output of (4 b_k + 1))/P of the challenge vectors, with b_k the bit length of layer k and lo that of the output layer, provided the value of the extension of the claimed output is computed by the verifier. The code asks the prover object for that value: for every circuit and every row there is a prover that claims the row as output and is accepted for all challenges.", "quantifier": "all layered circuits of addition, multiplication and zero gates, all provers, all claimed output rows, all challenge vectors", "why_tests_cant": "Soundness is about all adversarial provers and a probability of about 2^-240; no test run has a cheating prover, and the honest one never exercises the missing check.", "anchors": ["src/traditional_gkr/verifier_traditional.cpp:verifier::verify", "src/traditional_gkr/verifier_traditional.cpp:verifier::add", "src/traditional_gkr/verifier_traditional.cpp:verifier::mult", "src/traditional_gkr/prover_clogc.cpp:prover::V_res"]}
{"id": "C57", "title": "The block prover's messages are the partial sums of the block polynomial and of the layer polynomial", "statement": "In the block prover, which proves 2^k circuits (or the first 2^k of more) with the same gates and separate inputs together, each message of phase 0 is a cubic that evaluates at every point to the sum, over the remaining block coordinates, of the equality polynomial of the claim's block point times the weighted sum of the gates, each gate applied to the multilinear extension of the previous layer in the block coordinate. In phases 1 and 2 each message is the equality factor of the two block points times the partial sum of the layer polynomial over the previous layer's values at the block challenges. The values returned at the end of the layer are those of the extension at the challenges, and the member beta_blk_val is the equality factor. No phase exhibits undefined behaviour or fails an assertion.", "quantifier": "all numbers of blocks 2^k with k > 0, all block circuits of addition, multiplication and zero gates, all inputs, all layers, all challenges", "why_tests_cant": "The messages are polynomials over a 254-bit field fixed by sums over all blocks and gates; a test compares values at a few challenges.", "anchors": ["src/traditional_gkr/prover_bc_clogc.cpp:prover::sumcheck_phase0_init", "src/traditional_gkr/prover_bc_clogc.cpp:prover::sumcheck_phase0_update", "src/traditional_gkr/prover_bc_clogc.cpp:prover::sumcheck_phase1_init", "src/traditional_gkr/prover_bc_clogc.cpp:prover::sumcheck_phase1_update", "src/traditional_gkr/prover_bc_clogc.cpp:prover::sumcheck_phase2_init", "src/traditional_gkr/prover_bc_clogc.cpp:prover::sumcheck_phase2_update", "src/traditional_gkr/prover_bc_clogc.cpp:prover::sumcheck_finalize"]}
{"id": "C58", "title": "The block verifier accepts the honest block prover, except for a single block or stray wires", "statement": "For every family of at least 2^k circuits, k > 0, with the same gates above the input layer and arbitrary inputs, and for every sequence of challenges, the block verifier run against the block prover terminates without undefined behaviour and accepts. Both conditions are needed: with a single block (k = 0) the prover reads past its table of block weights, and a zero gate whose unused wire is out of range makes it read past its table of values, although the traditional track accepts the same circuits.", "quantifier": "all k > 0, all block circuits of addition, multiplication and zero gates with wires in range, all inputs, all challenges", "why_tests_cant": "Completeness ranges over all circuits and challenges; reading past the end of a heap array usually goes unnoticed in a test.", "anchors": ["src/traditional_gkr/verifier_bc_clogc.cpp:verifier::verify", "src/traditional_gkr/verifier_bc_clogc.cpp:verifier::V_in", "src/traditional_gkr/prover_bc_clogc.cpp:prover::evaluate", "src/traditional_gkr/prover_bc_clogc.cpp:prover::V_res", "src/traditional_gkr/bc_clogc.cpp:main"]}
{"id": "C59", "title": "The block verifier accepts scaled outputs because it asks the prover for the equality factor", "statement": "The block verifier multiplies its final check of every layer by beta_blk_val, which it reads from the prover object instead of computing it. Intended claim: a wrong output is accepted with small probability only. This is false of the code: for every block circuit of depth at least two and every constant c, a prover that announces c times the true outputs and multiplies its messages and beta_blk_val by c in the output layer is accepted for all challenges, even though the value of the announced outputs is evaluated honestly.", "quantifier": "all block circuits of the class with at least two layers, all constants c, all challenges", "why_tests_cant": "Tests run the honest prover; the attack is a different prover, and the claim is that it succeeds for every circuit and every challenge.", "anchors": ["src/traditional_gkr/verifier_bc_clogc.cpp:verifier::verify", "src/traditional_gkr/prover_bc_clogc.cpp:prover::V_res", "src/traditional_gkr/prover_bc_clogc.h:prover"]}
{"id": "C60", "title": "With the right equality factor the block verifier is sound", "statement": "If the factor in the final check of a layer is the equality polynomial of the two block points (which the verifier can compute from its own challenges) and the announced outputs are evaluated honestly, then for every prover a wrong output in any of the first 2^k blocks is accepted for at most a fraction (lo + k + sum over the layers of (4 b + 3 k + 1)) / p of the challenges, where lo is the number of bits of the output layer, b that of each lower layer, 2^k the number of blocks taken into account and p the field size. The verifier repaired in this way still accepts the honest prover for all challenges.", "quantifier": "all provers, all block circuits of the class, all wrong outputs, all challenge vectors (counted)", "why_tests_cant": "A statement about all provers, and a count over p^n challenge vectors with p a 254-bit prime.", "anchors": ["src/traditional_gkr/verifier_bc_clogc.cpp:verifier::verify", "src/traditional_gkr/verifier_bc_clogc.cpp:verifier::V_in", "src/traditional_gkr/verifier_bc_clogc.cpp:verifier::mult", "src/traditional_gkr/verifier_bc_clogc.cpp:verifier::add"]}
{"id": "C61", "title": "The multi-threaded V_res is race-free and computes the multilinear extension", "statement": "In prover_fast_para_track.cpp, V_res folds the output layer with four threads per round while at least four results remain and with one thread afterwards. For every number of variables, every point and every output, no interleaving of the threads has a data race or leaves the buffers, some interleaving ends, and all that end leave the multilinear extension of the output at the point in the buffer the function reads its result from.", "quantifier": "all sizes, all points, all output values, all interleavings of the threads in every round", "why_tests_cant": "A test sees a few schedules; the number of interleavings is exponential in the size of the layer.", "anchors": ["src/linear_gkr/prover_fast_para_track.cpp:prover::V_res", "src/linear_gkr/prover_fast_para_track.cpp:V_res_func"]}
{"id": "C62", "title": "The multi-threaded phase-1 initialisation races unless gates and left inputs fall in the same slice", "statement": "In sumcheck_phase1_init of prover_fast_para_track.cpp every thread first fills its slice of beta_g_sum and then, with no synchronisation, reads beta_g_sum[g] for the gates g whose left input lies in its slice of the layer below. Intended claim: the tables are the sums over the gates. As written this holds exactly for aligned layers: if every addition and multiplication gate lies in the slice with the number of its left input's slice, all interleavings are race-free and end with the right tables; if one gate does not, every completed execution has a data race, and a concrete execution leaves a wrong table. With a join between the two loops all layers are handled correctly in all interleavings.", "quantifier": "all layers, all values and weights, all interleavings", "why_tests_cant": "The race shows only in some schedules, and on common hardware it may give the right value; the claim is about all schedules and all layers.", "anchors": ["src/linear_gkr/prover_fast_para_track.cpp:prover::sumcheck_phase1_init", "src/linear_gkr/prover_fast_para_track.cpp:phase1_init_func", "src/linear_gkr/verifier_fast_para_track.cpp:verifier::read_circuit"]}
{"id": "C63", "title": "The multi-threaded phase-2 initialisation races on beta_u and can leave entries that are not field elements", "statement": "In sumcheck_phase2_init of prover_fast_para_track.cpp beta_u[u] is written by the thread owning u and read, with no synchronisation, by the thread owning the right input v of a gate. Intended claim: the tables are the sums over the gates, reduced modulo p. For every layer with an addition or multiplication gate whose two inputs fall in different slices, all completed executions have a data race. If the inputs of every gate fall in the same slice and no right input has more than three addition gates (multiplications are not limited), every execution is free of races and leaves exactly the sums, reduced. Beyond that the lazy reduction of up to 31 products is too late: eight gates on the same inputs and reduced tables end with an entry of at least 2^256, without a race.", "quantifier": "all layers with such a gate, all memories, all interleavings; all aligned layers with at most three additions per right input; one witness for the last claim", "why_tests_cant": "A claim about all schedules; the overflow needs many gates on one input with large values.", "anchors": ["src/linear_gkr/prover_fast_para_track.cpp:prover::sumcheck_phase2_init", "src/linear_gkr/prover_fast_para_track.cpp:phase2_init_func"]}
{"id": "C64", "title": "The multi-threaded rounds are race-free; phase 1 folds right, phase 2 underflows", "statement": "In the round functions of prover_fast_para_track.cpp the threads never race, for every size, round and challenge. After a phase-1 round the tables hold, for each pair of neighbours, the line through their two values at the challenge. Phase 2 leaves out the addition of the modulus before the subtraction: its constants are right, but after the first round a slope is right exactly when the integer a*r+b of the second neighbour is at least the reduced value of the first. Intended claim (phase 2 folds right) refuted: tables of zeros and ones give a wrong table in every execution.", "quantifier": "all table sizes 2^(n+1), all rounds, all challenges, all tables of field elements, all interleavings", "why_tests_cant": "Random tests rarely have a*r+b < nb for 254-bit values; the claim covers all tables and schedules.", "anchors": ["src/linear_gkr/prover_fast_para_track.cpp:prover::sumcheck_phase1_update", "src/linear_gkr/prover_fast_para_track.cpp:phase1_update_func", "src/linear_gkr/prover_fast_para_track.cpp:prover::sumcheck_phase2_update", "src/linear_gkr/prover_fast_para_track.cpp:phase2_update_func"]}
{"id": "C65", "title": "The stand-alone multilinear commitment accepts honest runs for even input lengths only", "statement": "multivariate_test.cpp commits to a vector by the equality weights of a secret point, opens it at a point r and verifies the opening. For every key, every point with at least one variable and every input of even length fitting the number of variables, with entries between -p and 2^254, key generation, commitment, commitment check, opening and verification all succeed and the opened value is the multilinear extension of the input at r. Intended claim (any length) refuted: multi_scalar combines scalars in pairs and drops an unpaired last one, so inputs of odd length that differ in the last entry have the same commitment, and the honest run is accepted exactly when the dropped term is zero. With no variables the prover is undefined.", "quantifier": "all secrets, all numbers of variables below 31, all inputs, all points", "why_tests_cant": "The program's own main only commits to vectors of a power of two; random tests of one size say nothing about other keys, sizes, negative entries or points.", "anchors": ["src/VPD/multivariate_test.cpp:keygen", "src/VPD/multivariate_test.cpp:multi_scalar", "src/VPD/multivariate_test.cpp:commit", "src/VPD/multivariate_test.cpp:prove", "src/VPD/multivariate_test.cpp:verify"]}
{"id": "C66", "title": "What the stand-alone multilinear commitment verifies, and that wrong values are rejected", "statement": "In multivariate_test.cpp verification accepts exactly if the second proof elements from number 1 on are a times the first ones and the opening equation holds; the second element number 0 is never checked (refuting that each element is checked). For a prover that gives any linear combinations of the key elements as commitment and as proof, a value other than that of the committed polynomial at r is accepted for at most the fraction 2D/p of the secret points; in particular a commitment made by commit opens to the multilinear extension of the input only.", "quantifier": "all proofs and commitments; all combinations of key elements; all but the stated fraction of secrets", "why_tests_cant": "Soundness is about all proofs; a test can only try a few wrong ones.", "anchors": ["src/VPD/multivariate_test.cpp:verify", "src/VPD/multivariate_test.cpp:commit"]}
{"id": "C67", "title": "The traditional program, from the circuit file to the verdict", "statement": "The loader of the traditional verifier accepts exactly the token streams that list, layer by layer, gates whose numbers are a permutation of 0..n-1 with int fields, and yields the circuit with those gates, the bit length of a layer coming from the number written last. Files in order, of sum, product and zero gates over power-of-two layers, load with the right table sizes, and the program prints Verification Pass for every number of copies and all challenges. The program passes exactly if each of its runs loads the file and accepts. Intended claims refuted: passing implies a verification took place (with no copies, also the result of a non-numeric argument, nothing is read); the order of lines does not matter; out-of-range wires are rejected on loading (they run into undefined behaviour).", "quantifier": "all token streams, all circuit files, all numbers of copies, all challenges", "why_tests_cant": "The classification is of all files, including malformed ones, which usually only misbehave silently; a test runs a handful of files.", "anchors": ["src/traditional_gkr/verifier_traditional.cpp:12-81", "src/traditional_gkr/bclogc.cpp"]}
{"id": "C68", "title": "The block program, from the circuit file to the verdict, and the blocks it never checks", "statement": "The block loader succeeds exactly if the traditional loader does on the same file, there is at least one copy and the table sizes fit an int; every block then holds the traditional circuit. The program passes on every file in order with sum, product and zero gates whose wires are in range, if log_n_copy >= 1 and n_copy >= 2^log_n_copy, for all challenges; with fewer copies no file passes. Intended claims refuted: all n_copy outputs are verified (those of the blocks from 2^log_n_copy on are never read, so a prover announcing anything for them is accepted for all challenges, even with the repair of C60); every file the traditional program passes is passed (unused wires of zero gates are read).", "quantifier": "all token streams, all files, all n_copy and log_n_copy, all challenges, all announced outputs of the extra blocks", "why_tests_cant": "Consistent arguments and an honest prover are the only tests there are; the claims are about all arguments and about a lying prover.", "anchors": ["src/traditional_gkr/verifier_bc_clogc.cpp:11-99", "src/traditional_gkr/bc_clogc.cpp", "src/traditional_gkr/prover_bc_clogc.cpp:138-157"]}
{"id": "C69", "title": "The loader of the multi-threaded track builds the traditional circuit and complete lists of gates by wire", "statement": "The loader of verifier_fast_para_track.cpp accepts exactly the token streams the traditional loader accepts with fewer than 2^31 - 10 layers, yields the same circuit and table size, and fills the maps u_gates and v_gates of each layer so that the list at key k holds exactly the gates of the layer with left (right) wire k, each once, including the dummy gate put beside a single one. For files in order the lists are in the order of the gates. Intended claim (the lists depend on the circuit only) refuted: the order of the lines of the file is the order of the lists.", "quantifier": "all token streams, all layers, all wires", "why_tests_cant": "A classification of all files, including malformed ones; a test runs a handful.", "anchors": ["src/linear_gkr/verifier_fast_para_track.cpp:12-87", "include/linear_gkr/circuit_fast_track.h:layer"]}
{"id": "C70", "title": "The verifier of the multi-threaded track: complete and sound on pure inputs, never accepting otherwise", "statement": "If all gates of the input layer are of type 3, the verifier of verifier_fast_para_track.cpp gives for every prover the verdict of the traditional verifier: it accepts honest messages for all challenges, and for every prover with an honestly computed V_res a wrong output is accepted for at most a fraction (lo + sum over the layers of (4 b + 1)) / p of the challenges. Intended claim (circuits the other tracks verify are verified here) refuted: the branch for input gates of type 2 is missing, so with any such gate no prover is ever accepted; this includes every file with a single input, beside which the loader itself puts a gate of type 2. Also refuted without the assumption on V_res: it is computed by the prover, and a prover exists for which every claimed output of a circuit of inputs is accepted.", "quantifier": "all provers, all circuits of the class, all challenges (counted for soundness)", "why_tests_cant": "A statement about all provers and all challenges; the test circuits have no zero inputs.", "anchors": ["src/linear_gkr/verifier_fast_para_track.cpp:200-382", "src/linear_gkr/verifier_fast_para_track.cpp:347-360", "src/linear_gkr/main_fast_para_track.cpp"]}
{"id": "C71", "title": "Messages of the multi-threaded rounds: outer coefficients right, the middle one overflows its lazy reduction", "statement": "In every execution of a multi-threaded phase-1 round the summed coefficients of x^2 and x^0 are exactly those of the sum over all pairs of M_i(x) V_i(x) + A_i(x), for every table; the coefficient of x^1 is so when no thread has more than one pair (at most 8 table entries). In phase 2, for slopes that do not underflow (C64), the outer coefficients are right for at most 16 entries and the middle one for at most 8. Intended claim (every message is right) refuted: the loop reduces only every fourth pair although each pair adds two products, so with a table of 64 reduced entries the middle coefficient does not fit in 256 bits, and already with 16 entries it need not be a reduced field element, in every execution.", "quantifier": "all tables of field elements, all rounds and challenges, all interleavings", "why_tests_cant": "Needs products near p^2 in neighbouring entries; random values average a quarter of p^2 and stay in the exact range of the reduction.", "anchors": ["src/linear_gkr/prover_fast_para_track.cpp:362-383", "src/linear_gkr/prover_fast_para_track.cpp:396-397", "src/linear_gkr/prover_fast_para_track.cpp:641-664", "src/linear_gkr/prover_fast_para_track.cpp:phase1_update_func", "src/linear_gkr/prover_fast_para_track.cpp:phase2_update_func"]}
{"id": "C72", "title": "The simple, blocked and summation modes of the circuit generator", "statement": "With a meta file of zeros, the file printed by mode 0 (depth 2..402, width 1..30) is loaded, its outputs are the even positions after d-2 layers that combine every value with value 0 by a+b-2ab, and the honest zero-knowledge run is accepted; the file of mode 1 (width 6..26) is loaded, output j is (2^(d-2) x_{2j})(2^(d-2) x_{2j+1}) mod p and the honest run is accepted. Intended claims refuted: the loader refuses the meta file that mode 1 writes, for every depth and width; mode 1 overflows an int for every width from 27 on and mode 0 is undefined for width 0; mode 5 prints empty summation ranges, so for every depth but 1 the loader refuses its file whatever the meta file, and for depth 1 the summation layer is not read.", "quantifier": "all depths, widths and results of rand()", "why_tests_cant": "The files grow to gigabytes near the overflow; acceptance is for all challenges and masks.", "anchors": ["bin/gen.cpp:13-43", "bin/gen.cpp:44-99", "bin/gen.cpp:261-275", "src/linear_gkr/zk_verifier.cpp:read_circuit"]}
{"id": "C73", "title": "Gate counts and depth printed by parser.cpp", "statement": "For every file of two-operand, constant, input and output lines (below 1.5 million lines, numbers that do not collide), with or without cycles, the program ends, prints the number of lines and of gates of degree two, and the depth it prints is that of some path from an input; for layered circuits it is the depth of the circuit. Intended claim (max depth is the length of the longest path) refuted: the search never enters a gate twice, so for every depth above 3 (below half a million) there is an ordered file of additions of that depth for which 3 is printed; and a single line that multiplies with a constant (its source keeps the value of an earlier line), passes (its target number is shifted by 1000000) or sums (it adds no edge) makes the printed depth of a layered circuit too small.", "quantifier": "all files", "why_tests_cant": "All graphs of up to 3 million edges; on layered inputs such as the generated SHA-256 files the printed depth can be right.", "anchors": ["parser.cpp:12-54", "parser.cpp:56-176"]}
{"id": "C74", "title": "Stand-alone matrix-multiplication program", "statement": "In tests/mm.cpp: for every d up to 10 and every input the circuit outputs the product of the matrix in the first half of the input with the transpose of the one in the second half; random_V_L returns the multilinear extension of a table at the given point (last coordinate for the lowest bit); the check of an addition layer passes exactly when the claim it is given is right, and the claim it leaves is right; main goes through all addition layers without a failure, entering the last sum check with a right claim about the products; and the messages of that sum check are computed without undefined behaviour, its first check passing exactly on a right claim. Intended claim (the program then verifies the multiplication layer) false: for every d, input and random numbers the program is undefined, because the check of the last round reads r[-1] (for d = 0, poly[0] of an empty vector; from d = 11 the circuit size overflows an int); for d between 1 and 10 this is the only check that leaves its vectors, and an earlier check reports a mismatch on the program's own messages for a right claim, which no challenge in r would repair.", "quantifier": "all d, inputs and random numbers", "why_tests_cant": "In practice the read below the vector returns heap metadata and the program only prints a mismatch; and products and tables range over all inputs modulo a 254-bit prime.", "anchors": ["tests/mm.cpp:40-147", "tests/mm.cpp:149-375", "tests/mm.cpp:435-479", "tests/mm.cpp:504-619", "tests/mm.cpp:637-690"]}
{"id": "C75", "title": "Direct Lanczos circuit generator", "statement": "bin/gen_lanczos.py ends normally exactly on the arguments its usage text allows (its two assertions about padding and number of coefficients never fail on the 2r coefficients it computes). For every ratio r and every power of two of windows per side (below the size limits), every list of 2r coefficients and every image, the file it writes is accepted by the loader, the honest zero-knowledge run on it is accepted, and output x n + y is the sum over the window of pixel times weight, where the weights of a row are the coefficients forwards, then backwards from the last but one, and the last pixel of the image for the last column; rows are only added up. With a number of windows per side that is not a power of two, which the usage text allows, the file loads and evaluating the circuit is undefined. Intended claim (the outputs are the separable Lanczos filter of the image) false for every size: with all coefficients zero and all pixels one every output is 4r.", "quantifier": "all ratios, image sizes, coefficients and images", "why_tests_cant": "The generator draws its image at random and nothing compares the outputs with the filter; the sizes are unbounded.", "anchors": ["bin/gen_lanczos.py:123-198", "bin/gen_lanczos.py:199-219"]}
