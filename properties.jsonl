{"id": "C01", "title": "Native-field gate operations compute what they say", "statement": "In every assignment of the advice columns that satisfies the constraints emitted by add, add_constant, sub, mul, mul_add, mul_add_constant and assign_constant of the base gate, the returned cell holds exactly the sum / difference / product / multiply-add / constant of the values held by the argument cells, in the native field; and the assignment the prover computes does satisfy those constraints.", "quantifier": "for every native prime field, every argument value, every starting row, every previously emitted circuit and every (adversarial) satisfying assignment", "why_tests_cant": "a unit test runs the honest prover only; soundness quantifies over all assignments a malicious prover could choose", "anchors": ["halo2-ecc-circuit-lib/src/gates/base_gate.rs::BaseGateOps::{one_line,one_line_add,add,add_constant,sub,mul,mul_add,mul_add_constant,assign_constant}", "halo2-ecc-circuit-lib/src/five/base_gate.rs::FiveColumnBaseGate::configure"]}
{"id": "C02", "title": "Weighted sums of any length are constrained correctly", "statement": "sum_with_constant on a list of (cell, coefficient) pairs of any length returns a cell that, in every satisfying assignment, equals constant + sum of coefficient*cell; the chaining of partial sums over consecutive rows never leaves a partial sum unconstrained.", "quantifier": "for every list length, every coefficient, every constant and every satisfying assignment", "why_tests_cant": "lists of unbounded length exercise the multi-row chaining; tests check a few lengths and only the honest witness", "anchors": ["halo2-ecc-circuit-lib/src/gates/base_gate.rs::BaseGateOps::sum_with_constant"]}
{"id": "C03", "title": "Boolean and selection gadgets are sound", "statement": "In every satisfying assignment: assert_bit forces 0/1; and/or/not/xor/xnor of bit cells return the bit of the corresponding truth table; is_zero returns 1 exactly when its argument is zero and 0 otherwise; bisec(cond,a,b) returns a when cond=1 and b when cond=0; assert_equal, assert_constant, assert_true, assert_false force what they say.", "quantifier": "for every prime native field, every cell values and every satisfying assignment", "why_tests_cant": "needs all field elements and all malicious witnesses (for example the auxiliary inverse cell of is_zero)", "anchors": ["halo2-ecc-circuit-lib/src/gates/base_gate.rs::BaseGateOps::{assert_bit,and,or,not,xor,xnor,is_zero,invert,assert_equal,assert_constant,bisec_cond}", "halo2-ecc-circuit-lib/src/five/base_gate.rs::bisec"]}
{"id": "C04", "title": "Division and inversion are determined by their operands", "statement": "In every satisfying assignment div_unsafe(a,b) returns a/b whenever b is not zero, and invert(a) returns (flag, inv) with flag=1 iff a=0 and a*inv=1 otherwise; when b=0 and a=0 the quotient cell is unconstrained, and when b=0 and a is not 0 no satisfying assignment exists.", "quantifier": "for every prime native field, every pair of operands and every satisfying assignment", "why_tests_cant": "the zero-divisor corner is hit with negligible probability by random tests and quantifies over adversarial witnesses", "anchors": ["halo2-ecc-circuit-lib/src/gates/base_gate.rs::BaseGateOps::{div_unsafe,invert,invert_unsafe}"]}
{"id": "C05", "title": "Limb size invariant over every history of foreign-field operations", "statement": "After any sequence of integer-chip operations every integer's recorded overflow count really bounds its limbs: each non-leading limb is at most (overflows+1)*(2^68-1), the leading one at most (overflows+1)*(2^50-1), so no limb-wise computation wraps around the native modulus.", "quantifier": "for every sequence of assign/add/sub/neg/mul/square/div/reduce/bisec/mul_small_constant calls and every satisfying assignment", "why_tests_cant": "the invariant is about unbounded histories of operations and worst-case limb values that random field elements never reach", "anchors": ["halo2-ecc-circuit-lib/src/five/integer_chip.rs::{add,sub,neg,mul,square,div,reduce,mul_small_constant,bisec,assign_w}", "halo2-ecc-circuit-lib/src/chips/integer_chip.rs::AssignedInteger"]}
{"id": "C06", "title": "Foreign-field multiplication is sound", "statement": "In every satisfying assignment the integer returned by mul (and square) represents the product of the integers represented by the arguments modulo the foreign modulus.", "quantifier": "for every pair of argument limbs within the limb invariant and every satisfying assignment of the auxiliary quotient and carry cells", "why_tests_cant": "512-bit value space; soundness hinges on a CRT argument over all malicious quotients and carries", "anchors": ["halo2-ecc-circuit-lib/src/five/integer_chip.rs::{mul,square,add_constraints_for_mul_equation_on_limbs,add_constraints_for_mul_equation_on_native}"]}
{"id": "C07", "title": "reduce keeps the represented value and restores canonical bounds", "statement": "In every satisfying assignment reduce replaces an integer by one that is congruent to it modulo the foreign modulus, whose limbs are in range and whose overflow count is zero.", "quantifier": "for every input whose overflow count is below the limit and every satisfying assignment", "why_tests_cant": "the quotient and carries are adversarial; equality modulo the native modulus and modulo 2^68 must imply integer equality for all of them", "anchors": ["halo2-ecc-circuit-lib/src/five/integer_chip.rs::{reduce,conditionally_reduce}"]}
{"id": "C08", "title": "Foreign-field addition, subtraction and negation are exact modulo the foreign modulus", "statement": "In every satisfying assignment add, sub and neg return integers congruent to a+b, a-b and -a modulo the foreign modulus, with every limb a true non-negative integer (no borrow wraps around the native field).", "quantifier": "for every pair of integers satisfying the limb invariant and every satisfying assignment", "why_tests_cant": "underflow happens only for extreme limb values, 2^-17 or rarer under random inputs", "anchors": ["halo2-ecc-circuit-lib/src/five/integer_chip.rs::{add,sub,neg,find_w_modulus_ceil}"]}
{"id": "C09", "title": "Foreign-field zero and equality tests decide congruence", "statement": "In every satisfying assignment is_zero(a) returns 1 iff a is congruent to 0 modulo the foreign modulus, is_equal(a,b) returns 1 iff a and b are congruent, and assert_equal(a,b) is satisfiable iff they are congruent.", "quantifier": "for every pair of integers satisfying the limb invariant and every satisfying assignment", "why_tests_cant": "non-canonical representatives (0, w) and adversarial reductions are not sampled by tests", "anchors": ["halo2-ecc-circuit-lib/src/five/integer_chip.rs::{is_zero,is_pure_zero,is_pure_w_modulus,assert_equal}", "halo2-ecc-circuit-lib/src/chips/integer_chip.rs::IntegerChipOps::is_equal"]}
{"id": "C10", "title": "Foreign-field division is sound", "statement": "In every satisfying assignment div(a,b) returns (flag, c) with flag=1 iff b is congruent to 0; when flag=0, c*b is congruent to a modulo the foreign modulus.", "quantifier": "for every pair of integers satisfying the limb invariant and every satisfying assignment", "why_tests_cant": "adversarial quotient, carries and zero-divisor handling", "anchors": ["halo2-ecc-circuit-lib/src/five/integer_chip.rs::div"]}
{"id": "C11", "title": "Overflow budget: no API call sequence aborts on legal inputs", "statement": "Integers returned by the chip can always be passed to the chip's operations again: no sequence of add/sub/neg/mul/... calls on valid inputs hits the overflow assertion or a negative big-integer subtraction.", "quantifier": "for every finite sequence of integer-chip operations starting from assigned values", "why_tests_cant": "the failing sequences need particular depths of un-reduced additions; the state space of overflow counts is explored only by induction over histories", "anchors": ["halo2-ecc-circuit-lib/src/five/integer_chip.rs::{reduce,conditionally_reduce,add,sub,neg,mul_small_constant,div}"]}
{"id": "C12", "title": "Parity bit exposed for a foreign element is determined by the element", "statement": "get_last_bit returns the parity of the foreign-field element represented by the integer, so the same field element always yields the same bit.", "quantifier": "for every foreign-field element and every satisfying assignment representing it", "why_tests_cant": "the honest prover always uses the canonical representative; only a malicious one chooses v+w", "anchors": ["halo2-ecc-circuit-lib/src/five/integer_chip.rs::{get_last_bit,assign_w}", "halo2-snark-aggregator-circuit/src/verify_circuit.rs::synthesize"]}
{"id": "C13", "title": "Point addition, doubling, negation and subtraction implement the curve group law", "statement": "For points on y^2=x^3+b (or the flagged identity), in every satisfying assignment add/double/neg/sub return the group-law result, including the cases identity+P, P+identity, P+P and P+(-P), and the result is again a valid flagged point.", "quantifier": "for every pair of valid points, every non-canonical limb representation and every satisfying assignment", "why_tests_cant": "exceptional cases and adversarial witnesses; unbounded number of representations", "anchors": ["halo2-ecc-circuit-lib/src/chips/ecc_chip.rs::{add,double,neg,sub,lambda_to_point,curvature,bisec_point}"]}
{"id": "C14", "title": "Point equality assertion means equality of points", "statement": "assert_equal(a,b) on points can be satisfied if and only if a and b are the same group element (both identity, or both affine with equal coordinates).", "quantifier": "for every pair of valid flagged points", "why_tests_cant": "needs points whose coordinates coincide while the identity flags differ", "anchors": ["halo2-ecc-circuit-lib/src/chips/ecc_chip.rs::assert_equal", "halo2-snark-aggregator-circuit/src/verify_circuit.rs::synthesize_proof"]}
{"id": "C15", "title": "Assigned points are on the curve", "statement": "In every satisfying assignment the point returned by assign_point is either the flagged identity (flag 1) or has flag 0 and affine coordinates satisfying the curve equation.", "quantifier": "for every satisfying assignment", "why_tests_cant": "a malicious prover picks coordinates and flag freely", "anchors": ["halo2-ecc-circuit-lib/src/chips/ecc_chip.rs::{assign_point,assign_constant_point,assign_constant_point_with_curvature,assign_identity}"]}
{"id": "C16", "title": "Scalar multiplication, multi-exponentiation and constant multiplication return the right group element", "statement": "mul(P,s), shamir(Ps,ss) and constant_mul(P,s) return s*P, the sum of ss_i*Ps_i, and s*P in the group.", "quantifier": "for every scalar, every point list length, every point and every window decomposition a satisfying assignment may choose", "why_tests_cant": "all scalars and all non-canonical bit decompositions", "anchors": ["halo2-ecc-circuit-lib/src/chips/ecc_chip.rs::{mul,shamir,constant_mul,pick_candidate}", "halo2-snark-aggregator-circuit/src/chips/ecc_chip.rs"]}
{"id": "C17", "title": "Scalar bit decomposition is binding modulo the scalar order", "statement": "In every satisfying assignment the windows returned by decompose_scalar consist of bits whose weighted sum is congruent to the scalar modulo the native order.", "quantifier": "for every scalar, window size 2 or 4 and every satisfying assignment", "why_tests_cant": "adversarial intermediate cells over 64 or 127 chained rows", "anchors": ["halo2-ecc-circuit-lib/src/chips/native_ecc_chip.rs::decompose_scalar"]}
{"id": "C18", "title": "Evaluating a query schema yields the linear combination it denotes", "statement": "eval of a schema built from commitments, evaluations and scalars by + and * returns the point part and scalar part of the value the expression denotes, whatever the nesting and sharing, provided no two commitments are multiplied and equal keys carry equal commitments.", "quantifier": "for every schema tree, every group and field values", "why_tests_cant": "trees are unbounded; merging by key and distribution of scalars depends on the whole shape", "anchors": ["halo2-snark-aggregator-api/src/systems/halo2/evaluation.rs::EvaluationQuerySchema::{eval,eval_prepare,has_commitment}"]}
{"id": "C19", "title": "Commitment keys identify commitments across aggregated circuits", "statement": "When several proofs of several circuits are aggregated, two different commitments never share a key, so no commitment is replaced by another one.", "quantifier": "for every list of circuits, circuit names, numbers of proofs, columns, lookups and permutation sets", "why_tests_cant": "depends on string formatting over unbounded indices and on how names are produced for each circuit", "anchors": ["halo2-snark-aggregator-api/src/systems/halo2/{params,lookup,permutation,vanish,multiopen}.rs::format!", "halo2-snark-aggregator-circuit/src/verify_circuit.rs::{Setup::new,CreateProof::new,synthesize_proof}"]}
{"id": "C20", "title": "Evaluating a schema never aborts", "statement": "eval succeeds on every schema the verifier builds for a valid proof, whatever the number of rotations and proofs.", "quantifier": "for every circuit shape", "why_tests_cant": "the abort needs a circuit opened at a single point", "anchors": ["halo2-snark-aggregator-api/src/systems/halo2/evaluation.rs::eval", "halo2-snark-aggregator-api/src/arith/ecc.rs::multi_exp"]}
{"id": "C21", "title": "Batched opening equals the GWC batch opening equation", "statement": "batch_multi_open_proofs returns w_x = sum u^i W_i and w_g = sum u^i (z_i W_i + sum_j v^j q_ij), grouping the queries by rotation in order of first appearance and keeping every query exactly once.", "quantifier": "for every list of queries, rotations and every challenge value", "why_tests_cant": "unbounded number of queries and rotations", "anchors": ["halo2-snark-aggregator-api/src/systems/halo2/multiopen.rs::{get_point_schemas,batch_multi_open_proofs}"]}
{"id": "C22", "title": "Aggregation accepts valid proofs and rejects unless every proof is valid", "statement": "If every individual accumulator satisfies the pairing equation the aggregated one does for every challenge; conversely if the aggregated equation holds for as many distinct challenges as there are proofs, every individual equation holds.", "quantifier": "for every number of proofs, every accumulators and every challenge", "why_tests_cant": "probabilistic soundness over all adversarial proofs and challenges", "anchors": ["halo2-snark-aggregator-api/src/systems/halo2/verify.rs::verify_aggregation_proofs_in_chip"]}
{"id": "C23", "title": "Lagrange basis values are the domain's Lagrange polynomials at the challenge", "statement": "get_lagrange_commits returns l_0(x), l_{-1}(x), ..., l_{-l}(x): the values at x of the polynomials of degree below n that are 1 at omega^{-i} and 0 at the other domain points.", "quantifier": "for every domain size n, primitive root omega, blinding count and every x outside the domain", "why_tests_cant": "polynomial identity over all x, n and omega", "anchors": ["halo2-snark-aggregator-api/src/systems/halo2/lagrange.rs::get_lagrange_commits", "halo2-snark-aggregator-api/src/systems/halo2/params.rs::queries"]}
{"id": "C24", "title": "Vanishing identity contains every gate, permutation and lookup constraint", "statement": "The quotient evaluation the verifier expects is (sum over all constraint polynomials of y^k * constraint)/(x^n-1), where the constraints are exactly the gate polynomials, the permutation argument and the lookup argument of halo2 evaluated at the claimed values, each exactly once.", "quantifier": "for every gate expression, number of columns, permutation chunks, lookups and all evaluation values", "why_tests_cant": "unbounded expression trees and chunk counts", "anchors": ["halo2-snark-aggregator-api/src/systems/halo2/{params,permutation,lookup,vanish,expression}.rs"]}
{"id": "C25", "title": "Constant exponentiation terminates with the right power", "statement": "pow_constant(base,e) returns base^e for every exponent e accepted by its precondition e>=1.", "quantifier": "for every 32-bit exponent and every base", "why_tests_cant": "exponents near the top of the 32-bit range are never tested and make the scan of bits loop", "anchors": ["halo2-snark-aggregator-api/src/arith/field.rs::pow_constant"]}
{"id": "C26", "title": "Sponge absorption is injective and the in-circuit hash equals the out-of-circuit one", "statement": "Between two squeezes, different input lists produce different padded block sequences, every absorbed element is consumed exactly once, and the in-circuit sponge computes the same values as the native one.", "quantifier": "for every sequence of absorb/squeeze calls and every list length", "why_tests_cant": "collisions of padding need specific lengths; unbounded call histories", "anchors": ["halo2-snark-aggregator-api/src/hash/poseidon.rs::{update,squeeze,absorb_with_pre_constants}"]}
{"id": "C27", "title": "Transcript writer and reader agree", "statement": "For every sequence of write_point/write_scalar/common_*/squeeze operations, reading the produced bytes with the same sequence returns the same values and the same challenges, and different absorbed histories feed different byte strings to the hash.", "quantifier": "for every operation sequence", "why_tests_cant": "unbounded histories of mixed operations", "anchors": ["halo2-snark-aggregator-api/src/transcript/sha.rs::{ShaRead,ShaWrite}"]}
{"id": "C28", "title": "A proof is consumed exactly", "statement": "The verifier accepts a proof byte string only if it is exactly the encoding of the elements it read; appended bytes make it fail.", "quantifier": "for every byte string", "why_tests_cant": "all possible suffixes", "anchors": ["halo2-snark-aggregator-api/src/systems/halo2/verify.rs::build_params", "halo2-snark-aggregator-api/src/systems/halo2/transcript.rs::read_point", "halo2-snark-aggregator-circuit/src/fs.rs::load_instances"]}
{"id": "C29", "title": "Instance commitments are the Lagrange-basis commitments of the public inputs", "statement": "assign_instance_commitment returns for each instance column the sum of instance_i * g_lagrange_i (identity for an empty column), and the flat list of exposed scalars in column order, each exactly once.", "quantifier": "for every number of proofs, columns and column lengths", "why_tests_cant": "unbounded lists", "anchors": ["halo2-snark-aggregator-api/src/systems/halo2/verify.rs::assign_instance_commitment"]}
{"id": "C30", "title": "Generated assignments are shared without changing values", "statement": "Emitting expressions through the code generator's common-subexpression cache never changes the value any later statement reads.", "quantifier": "for every sequence of emitted expressions and every calldata", "why_tests_cant": "unbounded programs", "anchors": ["halo2-snark-aggregator-solidity/src/code_generator/ctx.rs::{assign_memory,allocate}"]}
{"id": "C31", "title": "Fusing multiply and add preserves the program", "statement": "combine_mul_add rewrites a program into one that computes the same values in all memory cells that are still read afterwards.", "quantifier": "for every program the generator can emit and every calldata", "why_tests_cant": "unbounded programs with arbitrary operand aliasing", "anchors": ["halo2-snark-aggregator-solidity/src/code_generator/linear_scan/optimize.rs::combine_mul_add"]}
{"id": "C32", "title": "Memory pool never hands out overlapping live blocks", "statement": "For every sequence of allocations and frees, blocks that are live at the same time are disjoint, lie within the reported capacity, and freed space is reusable.", "quantifier": "for every interleaving of one-word and two-word allocations and frees", "why_tests_cant": "unbounded histories; splitting/merging of two-word blocks", "anchors": ["halo2-snark-aggregator-solidity/src/code_generator/linear_scan/memory_pool.rs"]}
{"id": "C33", "title": "Register allocation preserves the generated verifier", "statement": "The program after linear-scan memory allocation computes, in the cells of the returned expressions, the same values as the program before, for every calldata; temporaries are never overwritten before their last use and the declared memory size suffices.", "quantifier": "for every single-assignment program and every calldata", "why_tests_cant": "unbounded programs; the substitution shares one name space between old and new offsets", "anchors": ["halo2-snark-aggregator-solidity/src/code_generator/linear_scan/{mod,live_interval}.rs"]}
{"id": "C34", "title": "Merging transcript updates preserves the absorbed data", "statement": "Replacing runs of hash-update statements by loops leaves exactly the same words in the hash buffer.", "quantifier": "for every run of updates of points and scalars", "why_tests_cant": "unbounded runs; single-element runs are a corner case", "anchors": ["halo2-snark-aggregator-solidity/src/code_generator/aggregate/update_hash.rs"]}
{"id": "C35", "title": "Packed multiply-add opcodes decode to the statements they replace", "statement": "The packed 256-bit operand word interpreted by the contract's fr_mul_add_pm / fr_mul_add_mt / ecc_mul_add_pm performs exactly the sequence of multiply-adds that was merged.", "quantifier": "for every merged run length and every operand offset", "why_tests_cant": "offsets are packed in bytes; large verifiers exceed the byte range only for some circuits", "anchors": ["halo2-snark-aggregator-solidity/src/code_generator/aggregate/{multi_mul_add_pm,multi_mul_add_mt}.rs", "halo2-snark-aggregator-solidity/templates/verifier.sol::{fr_mul_add_pm,fr_mul_add_mt,ecc_mul_add_pm}"]}
{"id": "C36", "title": "Merging repeated multiplications into a power preserves the program", "statement": "Replacing a chain of temporaries t=a*a; t=t*t; t=t*a... by one call to the power routine yields the same value, and when the chain is abandoned every original statement is still emitted.", "quantifier": "for every program", "why_tests_cant": "unbounded chains and every interruption point", "anchors": ["halo2-snark-aggregator-solidity/src/code_generator/aggregate/aggregate_fr_pow.rs", "halo2-snark-aggregator-solidity/src/code_generator/aggregate.rs"]}
{"id": "C37", "title": "Merging regular multiplication runs into loops preserves the program", "statement": "A run m[l+k*dl]=m[a+k*da]*m[b+k*db] replaced by a loop yields the same memory; every other statement is emitted unchanged and in order.", "quantifier": "for every run length, stride and program context", "why_tests_cant": "unbounded runs; wrap-around of index differences", "anchors": ["halo2-snark-aggregator-solidity/src/code_generator/aggregate/aggregate_mul_seq.rs", "halo2-snark-aggregator-solidity/src/code_generator/aggregate.rs"]}
{"id": "C38", "title": "Contract arithmetic routines match field arithmetic", "statement": "fr_pow, fr_div, fr_mul, fr_add, fr_sub and fr_reverse of the generated contract compute power, quotient, product, sum, difference modulo the scalar order and byte reversal for all 256-bit inputs they accept.", "quantifier": "for every 256-bit inputs", "why_tests_cant": "2^256 inputs each; unreduced inputs", "anchors": ["halo2-snark-aggregator-solidity/templates/verifier.sol::{fr_pow,fr_div,fr_mul,fr_add,fr_sub,fr_reverse}"]}
{"id": "C39", "title": "Contract and native transcript derive the same challenges", "statement": "For every sequence of absorbed points, scalars and squeezes the byte string hashed by the contract equals the byte string hashed by the native reader, so the challenges agree.", "quantifier": "for every sequence of transcript operations", "why_tests_cant": "unbounded sequences and buffer reuse after a squeeze", "anchors": ["halo2-snark-aggregator-solidity/templates/verifier.sol::{squeeze_challenge,update_hash_point,update_hash_scalar}", "halo2-snark-aggregator-solidity/src/transcript/codegen.rs", "halo2-snark-aggregator-api/src/transcript/sha.rs"]}
{"id": "C40", "title": "Final pair is bound to the public inputs consistently", "statement": "The public inputs the circuit exposes for the final pair, those computed by final_pair_to_instances and those recomputed by the contract from the pair coordinates are the same four numbers for canonical coordinates, and distinct pairs of curve points give distinct numbers.", "quantifier": "for every pair of curve points", "why_tests_cant": "512-bit pairs; parity and limb packing corner cases", "anchors": ["halo2-snark-aggregator-circuit/src/verify_circuit.rs::{synthesize,final_pair_to_instances}", "halo2-snark-aggregator-solidity/templates/verifier.sol::verify"]}
{"id": "C41", "title": "Instance files round-trip", "statement": "Reading back a file written from a list of scalars returns exactly that list, for every list.", "quantifier": "for every list of scalars", "why_tests_cant": "unbounded lists and all field values", "anchors": ["halo2-snark-aggregator-circuit/src/fs.rs::{write_verify_circuit_instance,load_instances,write_verify_circuit_final_pair}"]}
{"id": "C42", "title": "Proof creation aggregates the proofs it is given", "statement": "MultiCircuitsCreateProof::call builds its witness, final pair and public inputs from the `proofs` it is given, in order, each exactly once.", "quantifier": "for every list of circuits and proofs", "why_tests_cant": "template and actual proofs coincide in every test", "anchors": ["halo2-snark-aggregator-circuit/src/verify_circuit.rs::{MultiCircuitsCreateProof::call,MultiCircuitsSetup::new_verify_circuit_info,without_witnesses}"]}
{"id": "C43", "title": "Contract point subtraction handles every curve point", "statement": "ecc_sub(a,b) in the contract returns a-b for every pair of curve points including the identity.", "quantifier": "for every pair of curve points", "why_tests_cant": "the identity operand is never produced by random tests", "anchors": ["halo2-snark-aggregator-solidity/templates/verifier.sol::ecc_sub"]}
{"id": "C44", "title": "Public input layout", "statement": "The aggregation circuit's instance column is exactly the four final-pair words followed by the concatenation of the public inputs of all proofs in circuit-major, proof, column order, so its length is 4 plus the total number of public inputs.", "quantifier": "for every number of circuits, proofs, columns and column lengths", "why_tests_cant": "unbounded nested lists", "anchors": ["halo2-snark-aggregator-circuit/src/verify_circuit.rs::synthesize", "halo2-snark-aggregator-api/src/systems/halo2/verify.rs::verify_aggregation_proofs_in_chip", "halo2-snark-aggregator-sdk/src/lib.rs::compute_verify_public_input_size"]}
{"id": "C45", "title": "Proof reading follows the protocol transcript", "statement": "Reading a proof absorbs the key hash, the instance commitments and every proof element, and draws every challenge, in exactly the order of the protocol; the resulting parameters hold exactly those elements and challenges, in the sizes fixed by the verifying key, and each challenge is the sponge's answer to everything absorbed before it.", "quantifier": "for every well-formed verifying key, every number of instances, every proof byte string and every hash", "why_tests_cant": "one proof exercises one shape; a challenge drawn before an element is absorbed is accepted by every honest proof", "anchors": ["halo2-snark-aggregator-api/src/systems/halo2/verify.rs::build_params", "halo2-snark-aggregator-api/src/systems/halo2/verify.rs::build_permutation_evaluated", "halo2-snark-aggregator-api/src/systems/halo2/verify.rs::build_lookup_evaluated", "halo2-snark-aggregator-api/src/systems/halo2/transcript.rs::read_point"]}
{"id": "C46", "title": "Aggregation, end to end", "statement": "The pair returned by the aggregation verifier is the combination, in powers of a challenge drawn after absorbing an answer of every proof transcript, of the accumulators of parameters read from the given proof bytes with commitments to the given public inputs; the instance list it returns is the given one in order.", "quantifier": "for every list of circuits and proofs with distinct proof keys", "why_tests_cant": "any number of circuits and proofs, any bytes", "anchors": ["halo2-snark-aggregator-api/src/systems/halo2/verify.rs::verify_aggregation_proofs_in_chip", "halo2-snark-aggregator-api/src/systems/halo2/verify.rs::verify_single_proof_no_eval"]}
{"id": "C47", "title": "The generated contract accepts exactly when the native verifier does", "statement": "For every verifier run (list of chip and transcript calls), the contract obtained from it by emission, fusion, memory allocation and merging, filled into the template, accepts a proof and final pair exactly when the pairing checks hold of the points the native verifier computes from that proof and of the final pair.", "quantifier": "for every list of chip calls, every proof and public inputs the native verifier accepts for reading, every final pair and pairing predicate", "why_tests_cant": "composition of five program transformations over unbounded programs and all proofs", "anchors": ["halo2-snark-aggregator-solidity/src/lib.rs::call", "halo2-snark-aggregator-solidity/src/chips", "halo2-snark-aggregator-solidity/src/code_generator", "halo2-snark-aggregator-solidity/templates/verifier.sol"]}
{"id": "C48", "title": "Sample files of different proofs are different", "statement": "The proof file and the instance file of a sample proof are named so that two different pairs of circuit name and proof index never share a file.", "quantifier": "for every two circuit names and proof indices", "why_tests_cant": "all strings and indices; the tests use one name", "anchors": ["halo2-snark-aggregator-circuit/src/fs.rs::{load_target_circuit_instance,load_target_circuit_proof}", "halo2-snark-aggregator-circuit/src/sample_circuit.rs::sample_circuit_random_run"]}
{"id": "C49", "title": "The verifier is its list of chip calls", "statement": "The generic verifier makes a list of chip and transcript calls that depends only on the verification keys, the shapes of the instances, the proof keys and the number of opening points; running the list yields the pair, instances and advice commitments of the verifier, and it runs exactly when the verifier succeeds with that number of opening points and no further point can be read.", "quantifier": "for every list of circuits, proofs, instances and proof bytes, every field, module, decoding and hash", "why_tests_cant": "all proof systems, all proof bytes, all numbers of proofs", "anchors": ["halo2-snark-aggregator-api/src/systems/halo2/verify.rs::{verify_single_proof_in_chip,verify_aggregation_proofs_in_chip}", "halo2-snark-aggregator-api/src/arith/ecc.rs", "halo2-snark-aggregator-api/src/arith/field.rs"]}
{"id": "C50", "title": "From the verification key to the contract", "statement": "The code generator runs the calls of the verifier for the given verification key. For every proof and instances of the sample's shape on which the verifier, reading through the SHA transcript, computes the two points, these calls compute the same points, and the contract made from them accepts exactly if the pairing checks of the two points and of the final pair succeed.", "quantifier": "for every verification key, sample proof, proof bytes, instances, final pair, pairing precompile and 32-byte digest", "why_tests_cant": "all verification keys and all proofs; the tests compile one contract and submit a handful of proofs", "anchors": ["halo2-snark-aggregator-solidity/src/lib.rs::MultiCircuitSolidityGenerate::call", "halo2-snark-aggregator-api/src/systems/halo2/verify.rs::verify_single_proof_in_chip", "halo2-snark-aggregator-api/src/transcript/sha.rs", "halo2-snark-aggregator-solidity/templates/verifier.sol"]}
{"id": "C51", "title": "Satisfying the aggregation circuit means verifying proofs", "statement": "Every assignment that satisfies the constraints laid out for the aggregation circuit, with public inputs encoding a final pair and instances, comes from proofs for the same verification keys and instance shapes on which native verification ends with these instances and this pair.", "quantifier": "for every list of target circuits and proofs the circuit is laid out from, every assignment of all cells, every sponge, encoding and final pair", "why_tests_cant": "all assignments of the cells, including those no honest prover produces; tests only run the honest prover on one circuit", "anchors": ["halo2-snark-aggregator-circuit/src/verify_circuit.rs::{Halo2VerifierCircuits::synthesize,synthesize_proof}", "halo2-snark-aggregator-circuit/src/chips/{scalar_chip,ecc_chip,encode_chip}.rs", "halo2-snark-aggregator-api/src/transcript", "halo2-ecc-circuit-lib/src"]}
{"id": "C52", "title": "An honest prover can satisfy the aggregation circuit", "statement": "If native verification of the proofs comes to its end with a final pair and instances, laying out the aggregation circuit for these proofs comes to its end too, the prover's values satisfy all its constraints, and the public inputs are the numbers computed natively.", "quantifier": "for every list of target circuits and proofs, every sponge, encoding of points and scalars and list of asserted equal commitments", "why_tests_cant": "all circuits, keys and proofs; a test proves one circuit and cannot show that none makes the layout abort or the constraints fail", "anchors": ["halo2-snark-aggregator-circuit/src/verify_circuit.rs::{Halo2VerifierCircuits::synthesize,synthesize_proof,calc_verify_circuit_final_pair}", "halo2-snark-aggregator-circuit/src/chips/{scalar_chip,ecc_chip,encode_chip}.rs", "halo2-ecc-circuit-lib/src", "halo2-snark-aggregator-api/src/transcript"]}
{"id": "C53", "title": "The layout of the circuit does not depend on the proofs", "statement": "Laying out the aggregation circuit for two lists of proofs of the same target circuits, with instances of the same shapes and the same number of opening points, gives the same rows, copies and lookups and ties the same cells to the public inputs; so an assignment made for the proofs satisfies the circuit the keys were made for.", "quantifier": "for every two lists of proofs, every verification key, sponge, encoding and pair of fields", "why_tests_cant": "a layout that differs only for some values of challenges, limbs or scalars passes every test that does not hit these values; halo2 then makes proofs that no key accepts", "anchors": ["halo2-snark-aggregator-circuit/src/verify_circuit.rs::{Halo2VerifierCircuits::synthesize,synthesize_proof,without_witnesses,MultiCircuitsSetup::call,MultiCircuitsCreateProof::call}", "halo2-ecc-circuit-lib/src/{gates,chips,five}"]}
{"id": "C54", "title": "The measuring pass never counts too few rows", "statement": "In the first pass of the floor planner the circuit lays out two rounds of each multi-scalar multiplication and skips as many rows for every further round. The rows so counted for the first region are at least those the real pass takes, and exactly those if no multiplication has a single point; so the second region is never placed over the end of the first. The second region takes the same number of rows in both passes.", "quantifier": "for every two lists of proofs of the same target circuits (the one measured with, the one proved), every verification key, sponge, encoding and pair of fields", "why_tests_cant": "the number of rows of a round depends on overflow counts and cached slopes of all earlier points; a count that is short only for some keys would let regions overlap for these keys only", "anchors": ["halo2-ecc-circuit-lib/src/chips/ecc_chip.rs::shamir", "halo2-ecc-circuit-lib/src/gates/base_gate.rs::Context::expand", "halo2-ecc-circuit-lib/src/five/base_gate.rs::in_shape_mode", "halo2-snark-aggregator-circuit/src/verify_circuit.rs::Halo2VerifierCircuits::synthesize"]}
{"id": "C55", "title": "The configured gate and lookups check exactly what the chips ask for", "statement": "With the fixed columns, selectors and tables that the circuit fills in, halo2's single gate and its seven lookups hold on all rows, and all copies agree, if and only if the advice columns satisfy every constraint the chips meant, row by row; rows that no chip wrote ask for nothing, and each leading chunk is looked up in the table of its own width. The tables can be built if and only if there are 2^17 usable rows and neither modulus is a power of two plus one.", "quantifier": "for every assignment of the advice columns, every number of rows, every list of target circuits and proofs, every verification key, sponge, encoding and pair of fields", "why_tests_cant": "a selector left unset or set on a wrong row removes or adds a constraint without changing what an honest prover does; only dishonest cells, of which there are too many to try, tell the difference", "anchors": ["halo2-ecc-circuit-lib/src/gates/range_gate.rs::RangeGate::init_table", "halo2-ecc-circuit-lib/src/five/range_gate.rs::FiveColumnRangeGate::configure", "halo2-ecc-circuit-lib/src/gates/base_gate.rs::BaseGate::configure", "halo2-ecc-circuit-lib/src/gates/base_gate.rs::BaseGate::one_line"]}
{"id": "C56", "title": "The multi-scalar library computes the sum of the multiples", "statement": "LibMulexp.multiexp returns the sum of scalar times base over the scalars, or reverts; it reverts exactly if there are fewer bases than scalars, a base with a scalar other than 0 is not a point of the curve, or the recursion is deeper than the stack allows. The recursion of exp nests one call per bit of the scalar and one more per further bit that is 1.", "quantifier": "for all lists of 256-bit scalars, all bases given as pairs of words, and all depths of the stack", "why_tests_cant": "there are 2^256 scalars and the double-and-add recursion takes a different path for each; depth and validity checks only show for particular ones", "anchors": ["halo2-snark-aggregator-solidity/templates/lagrange.sol::exp", "halo2-snark-aggregator-solidity/templates/lagrange.sol::multiexp"]}
{"id": "C57", "title": "The printed contract text means what the program means", "statement": "The Solidity text that the code generator prints for the body of get_wx_wg is a sequence of Solidity statements with a return statement, and running that text returns the same four words as the generated program, or reverts exactly when the program does. Printing itself panics exactly for a power of a point, an update loop with its end before its start or step 0, and a multiplication loop over points.", "quantifier": "for all programs whose statements are single operations on operands of the right type, all offsets and constants within the ranges of their types, all proofs, instances, memory sizes and digests", "why_tests_cant": "a wrong argument order, bound, index or function name in one printed form shows only for programs that contain that form and calldata on which the results differ; a test compiles one contract and runs a few proofs", "anchors": ["halo2-snark-aggregator-solidity/src/code_generator/ctx.rs::to_solidity_string", "halo2-snark-aggregator-solidity/src/code_generator/ctx.rs::to_typed_string", "halo2-snark-aggregator-solidity/src/code_generator/ctx.rs::to_origin_string", "halo2-snark-aggregator-solidity/src/lib.rs::render_verifier_sol_template", "halo2-snark-aggregator-solidity/templates/verifier.sol::get_wx_wg"]}
{"id": "C58", "title": "The contract accepts only words below the modulus", "statement": "A proof or a public input that the contract accepts is one that the native verifier can read: every scalar word of the proof and every word of the public inputs is below the modulus of the scalar field, so one statement has one encoding.", "quantifier": "for all proofs and final pairs, all digests, all generated programs", "why_tests_cant": "tests submit what the native prover wrote, which is always reduced; words above the modulus are never tried", "anchors": ["halo2-snark-aggregator-solidity/templates/verifier.sol::verify", "halo2-snark-aggregator-solidity/src/lib.rs::instance_assign", "halo2-snark-aggregator-api/src/transcript/sha.rs::read_scalar"]}
