{
 "claims": [
  {
   "property": "C01",
   "status": "proved",
   "theorems": [
    "C01_add_sound",
    "C01_add_constant_sound",
    "C01_sub_sound",
    "C01_mul_sound",
    "C01_mul_add_sound",
    "C01_mul_add2_sound",
    "C01_mul_add_constant_sound",
    "C01_assign_constant_sound",
    "C01_mul_add_with_next_line_sound",
    "C01_ops_complete",
    "C01_mul_add_with_next_line_default_refuted"
   ],
   "note": "Base gate operations, soundness for any assignment and completeness of the prover's values; the trait's unused default multiply-add chain is refuted."
  },
  {
   "property": "C02",
   "status": "proved",
   "theorems": [
    "C02_sum_sound",
    "C02_sum_complete"
   ],
   "note": "Any number of terms, by induction over the rows."
  },
  {
   "property": "C03",
   "status": "proved",
   "theorems": [
    "C03_assert_bit",
    "C03_truth_tables",
    "C03_bisec",
    "C03_is_zero",
    "C03_assertions",
    "C03_complete",
    "C03_assert_complete"
   ],
   "note": "Truth tables, selection, zero test and assertions, sound and complete."
  },
  {
   "property": "C04",
   "status": "proved",
   "theorems": [
    "C04_div_unsafe",
    "C04_div_unsafe_zero_unconstrained",
    "C04_invert",
    "C04_invert_unsafe",
    "C04_complete"
   ],
   "note": "Quotient determined for a non-zero divisor; for 0/0 every value is accepted."
  },
  {
   "property": "C05",
   "status": "partial",
   "theorems": [
    "C05_history_partial",
    "C05_history_refuted",
    "C05_mul_small_constant_true_bound"
   ],
   "note": "For any sequence of chip calls that does not multiply by a small constant >= 2; refuted with mul_small_constant, whose true bound is proved."
  },
  {
   "property": "C06",
   "status": "proved",
   "theorems": [
    "C06_mul_sound",
    "C06_square_sound"
   ],
   "note": "Product and square determined modulo p for any satisfying assignment, arguments with up to 63 recorded overflows."
  },
  {
   "property": "C07",
   "status": "proved",
   "theorems": [
    "C07_reduce_sound",
    "C07_reduce_complete"
   ],
   "note": "Reduction sound and complete; result is the canonical representative for the honest prover."
  },
  {
   "property": "C08",
   "status": "proved",
   "theorems": [
    "C08_add_sound",
    "C08_sub_sound",
    "C08_neg_sound"
   ],
   "note": "Exact modulo p, limb invariant kept, recorded overflows below 32."
  },
  {
   "property": "C09",
   "status": "proved",
   "theorems": [
    "C09_is_zero_sound",
    "C09_is_equal_sound",
    "C09_assert_equal_sound",
    "C09_assert_equal_complete",
    "C09_tests_complete",
    "C09_is_zero_after_mul_small_constant_refuted"
   ],
   "note": "Decides congruence both ways; refuted for integers that come out of mul_small_constant (invariant broken)."
  },
  {
   "property": "C10",
   "status": "proved",
   "theorems": [
    "C10_div_sound",
    "C10_div_complete"
   ],
   "note": "Quotient determined when the divisor is not congruent to 0, flag exact; complete."
  },
  {
   "property": "C11",
   "status": "partial",
   "theorems": [
    "C11_no_abort_partial",
    "C11_no_abort_refuted",
    "C11_div_underflow_refuted"
   ],
   "note": "Every call sequence in an explicit envelope runs without abort; refuted outside it (31/31 subtraction, division after mul_small_constant)."
  },
  {
   "property": "C12",
   "status": "partial",
   "theorems": [
    "C12_last_bit_partial",
    "C12_last_bit_refuted"
   ],
   "note": "Bit is the parity of the limbs' integer, hence of the element when that integer is below p; refuted in general (0 and p have different parity)."
  },
  {
   "property": "C13",
   "status": "partial",
   "theorems": [
    "C13_group_laws",
    "C13_add_sound",
    "C13_double_sound",
    "C13_neg_sound",
    "C13_sub_sound",
    "C13_reduce_sound",
    "C13_curve_order",
    "C13_history",
    "C13_no_abort_partial",
    "C13_double_refuted"
   ],
   "note": "Group law for add/double/neg/sub/reduce and for any sequence of point operations, in every satisfying assignment; sequences whose tangent slopes are cached or computable never abort; refuted for valid points whose tangent slope makes the chip panic."
  },
  {
   "property": "C14",
   "status": "partial",
   "theorems": [
    "C14_assert_equal_partial",
    "C14_reduced_sound",
    "C14_assert_equal_complete",
    "C14_assert_equal_refuted"
   ],
   "note": "Sound up to the flags, exact on reduced points, complete; refuted: the flagged identity with coordinates (1,2) is accepted as equal to the generator."
  },
  {
   "property": "C15",
   "status": "partial",
   "theorems": [
    "C15_assign_point_partial",
    "C15_constants_sound",
    "C15_identity_sound",
    "C15_assign_point_complete",
    "C15_assign_point_refuted"
   ],
   "note": "Flag 1 or on the curve, in every satisfying assignment; constants and identity exact; complete; refuted: the flag cell can hold 2."
  },
  {
   "property": "C16",
   "status": "proved",
   "theorems": [
    "C16_mul_sound",
    "C16_shamir_sound",
    "C16_constant_mul_sound",
    "C16_constant_mul_complete",
    "C16_assigned",
    "C16_mul_complete_partial",
    "C16_shamir_complete_partial",
    "C16_constant_mul_value",
    "C16_mul_refuted"
   ],
   "note": "Sound for every curve point, scalar, list length and decomposition (the curve has prime order: C13_curve_order). constant_mul complete for every point and scalar; mul and shamir complete whenever the tangent slopes they compute exist as integers (partial: C16_mul_refuted shows a valid point for which mul always aborts)."
  },
  {
   "property": "C17",
   "status": "proved",
   "theorems": [
    "C17_decompose_sound",
    "C17_decompose_complete"
   ],
   "note": "Sound for window sizes 2 and 4, complete for every scalar."
  },
  {
   "property": "C18",
   "status": "proved",
   "theorems": [
    "C18_schema_eval_denotes",
    "C18_product_of_commitments_refuted"
   ],
   "note": "Schema evaluation denotes the pair (point, scalar) for linear schemas; refuted for products of commitments (one factor is dropped)."
  },
  {
   "property": "C19",
   "status": "partial",
   "theorems": [
    "C19_keys_identify_commitments_partial",
    "C19_proof_keys_distinct",
    "C19_same_circuit_name_refuted"
   ],
   "note": "Holds when the proof keys are distinct and every params record holds one proof; refuted when two circuits share a name, as the SDK loader does."
  },
  {
   "property": "C20",
   "status": "partial",
   "theorems": [
    "C20_evaluation_succeeds_partial",
    "C20_single_rotation_refuted"
   ],
   "note": "Evaluation succeeds with two proofs or two rotations; refuted for a single proof with a single rotation."
  },
  {
   "property": "C21",
   "status": "proved",
   "theorems": [
    "C21_batch_is_gwc",
    "C21_batch_defined",
    "C21_honest_openings_accepted",
    "C21_batch_sound_in_u",
    "C21_column_queries_present",
    "C21_argument_queries_present"
   ],
   "note": "Batch equals the GWC equation; complete for honest openings; sound over the choice of u (one fewer bad u than points)."
  },
  {
   "property": "C22",
   "status": "proved",
   "theorems": [
    "C22_aggregation_complete",
    "C22_aggregation_sound",
    "C22_verifier_output"
   ],
   "note": "Pairing is an abstract bilinear map, injective at g2 (section hypotheses)."
  },
  {
   "property": "C23",
   "status": "proved",
   "theorems": [
    "C23_lagrange_values",
    "C23_lagrange_poly_exists",
    "C23_abort_on_domain_points"
   ],
   "note": "Lagrange basis values; aborts exactly at the excluded domain points."
  },
  {
   "property": "C24",
   "status": "proved",
   "theorems": [
    "C24_vanishing_identity"
   ],
   "note": "Vanishing argument identity with the full constraint list (gates, permutation, lookup)."
  },
  {
   "property": "C25",
   "status": "partial",
   "theorems": [
    "C25_pow_constant_partial",
    "C25_large_exponent_refuted"
   ],
   "note": "Proved for 1 <= e < 2^31; refuted (divergence) for 2^31 <= e < 2^32."
  },
  {
   "property": "C26",
   "status": "proved",
   "theorems": [
    "C26_native",
    "C26_circuit_sound",
    "C26_circuit_complete",
    "C26_absorbed_once",
    "C26_padding_injective",
    "C26_across_squeezes_refuted"
   ],
   "note": "For arbitrary constants of the right shapes. Finding: across squeezes different histories can reach the same state (C26_across_squeezes_refuted)."
  },
  {
   "property": "C27",
   "status": "proved",
   "theorems": [
    "C27_round_trip",
    "C27_writer_total",
    "C27_canonical",
    "C27_injective"
   ],
   "note": "For an arbitrary digest of 32 bytes; injectivity up to a collision of the digest or a digest equal to a value header."
  },
  {
   "property": "C28",
   "status": "partial",
   "theorems": [
    "C28_layout",
    "C28_extra_point_rejected_partial",
    "C28_other_bytes_ignored",
    "C28_refuted"
   ],
   "note": "Bytes read are exactly the encodings of the elements (layout theorem) and an extra decodable point is rejected; the full claim is refuted: any trailing bytes that do not begin with a point encoding are ignored."
  },
  {
   "property": "C29",
   "status": "proved",
   "theorems": [
    "C29_instance_commitments",
    "C29_bad_instances_refused"
   ],
   "note": "Instance commitments and refusal of malformed instances."
  },
  {
   "property": "C30",
   "status": "proved",
   "theorems": [
    "C30_sharing",
    "C30_emission"
   ],
   "note": "Emission through the cache against emission without it, for any sequence of requests; and every call of a verifier run emits statements computing its native result (sponge in mock mode included)."
  },
  {
   "property": "C31",
   "status": "partial",
   "theorems": [
    "C31_fusion_preserves_partial",
    "C31_refuted"
   ],
   "note": "Proved for every single-assignment program without a statement that adds a value to itself (t + t). With such a statement the claim is false: the fused statement drops the multiplication from one of the two uses (C31_refuted)."
  },
  {
   "property": "C32",
   "status": "proved",
   "theorems": [
    "C32_pool",
    "C32_take_succeeds",
    "C32_free",
    "C32_free_order"
   ],
   "note": "For every sequence of alloc1/alloc2/free: live blocks disjoint and within capacity, freeing is exact, taking succeeds and reuses freed space before growing; the order of the frees of one step does not matter."
  },
  {
   "property": "C33",
   "status": "proved",
   "theorems": [
    "C33_linear_scan",
    "C33_temporaries",
    "C33_memory_optimize"
   ],
   "note": "linear_scan and memory_optimize succeed on every single-assignment program with fewer cells than the marker 0xdeadbeaf, and the result evaluates to the same values with the declared memory size, for every proof, instance, hash function and debug/release setting. memory_optimize includes the fusion pass and needs the restriction of C31 on self additions."
  },
  {
   "property": "C34",
   "status": "partial",
   "theorems": [
    "C34_update_hash_partial",
    "C34_refuted"
   ],
   "note": "Same absorbing buffer, provided no point of the proof is absorbed alone (each is next to another one). A single absorbed point is emitted as a scalar (C34_refuted)."
  },
  {
   "property": "C35",
   "status": "partial",
   "theorems": [
    "C35_mul_add_pm_partial",
    "C35_mul_add_mt_partial",
    "C35_refuted"
   ],
   "note": "Same results for offsets that fit the bytes of the packed word. Offsets from 255 (proof) or 256 (memory) on are packed wrongly (C35_refuted)."
  },
  {
   "property": "C36",
   "status": "partial",
   "theorems": [
    "C36_fr_pow_partial",
    "C36_refuted"
   ],
   "note": "Same results if no chain of two or more steps is followed by another product of scalars. Otherwise the merged statements after the first are dropped (C36_refuted)."
  },
  {
   "property": "C37",
   "status": "partial",
   "theorems": [
    "C37_mul_seq_partial",
    "C37_all_passes_partial",
    "C37_refuted"
   ],
   "note": "Same memory, and the statements outside the replaced runs are unchanged and in order, for debug builds; C37_all_passes covers the whole aggregate function for both build modes when the debug build does not panic. For descending offsets a debug build panics and a release build emits a contract that always reverts (C37_refuted)."
  },
  {
   "property": "C38",
   "status": "partial",
   "theorems": [
    "C38_add",
    "C38_mul",
    "C38_mul_add",
    "C38_pow",
    "C38_sub_partial",
    "C38_div_partial",
    "C38_reverse",
    "C38_div_refuted",
    "C38_sub_refuted"
   ],
   "note": "Every inline scalar expression and template function on any 256-bit words. Two corner cases of the original claim are false and refuted: division by a non-zero multiple of the order returns 0 instead of reverting (C38_div_refuted), subtraction of a word above the order (C38_sub_refuted); neither is reachable from reduced operands."
  },
  {
   "property": "C39",
   "status": "proved",
   "theorems": [
    "C39_challenges"
   ],
   "note": "Buffer bytes and challenges agree for every sequence of operations the native reader accepts, including the reuse of the buffer after a squeeze; the digest is any function with 32-byte results."
  },
  {
   "property": "C40",
   "status": "partial",
   "theorems": [
    "C40_native",
    "C40_native_is_contract",
    "C40_injective",
    "C40_circuit_complete",
    "C40_circuit_sound_partial",
    "C40_bound_up_to_sign",
    "C40_sign_refuted"
   ],
   "note": "Native and contract numbers are equal and injective on pairs of curve points; the circuit can be satisfied with exactly those numbers, and in every satisfying assignment the public numbers determine the pair up to the sign of each point. The sign itself is not bound (C40_sign_refuted): reduce accepts remainders above the modulus."
  },
  {
   "property": "C41",
   "status": "proved",
   "theorems": [
    "C41_round_trip",
    "C41_load_sound",
    "C41_write_injective",
    "C41_truncation_refuted",
    "C41_final_pair"
   ],
   "note": "Round trip and its converse for every list and file; the final-pair file holds the words given to the contract. Fewer than 32 trailing bytes are ignored, so a truncated file is accepted (C41_truncation_refuted)."
  },
  {
   "property": "C42",
   "status": "partial",
   "theorems": [
    "C42_template_partial",
    "C42_new",
    "C42_proofs_ignored",
    "C42_refuted",
    "C42_folder_keys_collide",
    "C42_setup"
   ],
   "note": "The call aggregates the first nproofs template proofs of every circuit, in order, each once, and the circuit and the native computation see the same ones; with CreateProof::new these are the given proofs. The field proofs is ignored (C42_refuted, C42_proofs_ignored)."
  },
  {
   "property": "C43",
   "status": "partial",
   "theorems": [
    "C43_sub_partial",
    "C43_refuted",
    "C43_identity_always_reverts"
   ],
   "note": "Holds for every point except the identity; subtracting the identity makes the precompile reject, so the transaction reverts (C43_refuted, C43_identity_always_reverts)."
  },
  {
   "property": "C44",
   "status": "proved",
   "theorems": [
    "C44_layout",
    "C44_size",
    "C44_circuit_layout"
   ],
   "note": "Layout and length of the column computed natively, for every request that succeeds; the circuit's public cells are four words followed by the instance cells."
  },
  {
   "property": "C45",
   "status": "proved",
   "theorems": [
    "C45_reader_runs_protocol",
    "C45_challenges_from_sponge"
   ],
   "note": "Exact characterisation (iff) of build_params by the protocol event list; challenges identified with the Poseidon sponge history."
  },
  {
   "property": "C46",
   "status": "proved",
   "theorems": [
    "C46_aggregation_end_to_end"
   ],
   "note": "Composition of the reader with C19 and C22: distinct proof keys, one instance list per proof."
  },
  {
   "property": "C47",
   "status": "partial",
   "theorems": [
    "C47_contract_partial",
    "C47_contract_refuted",
    "C47_text_partial"
   ],
   "note": "Emission, all passes and the template composed: the contract accepts iff the native pairing checks hold, for proofs the native reader accepts and programs inside the conditions of the passes; refuted when a verifier adds the same product twice. C47_text_partial states the same of the printed text. For proofs and public inputs the native verifier cannot read see C58."
  },
  {
   "property": "C48",
   "status": "partial",
   "theorems": [
    "C48_file_names_partial",
    "C48_file_names_refuted"
   ],
   "note": "Injective for circuit names that do not end in a digit; refuted otherwise."
  },
  {
   "property": "C49",
   "status": "proved",
   "theorems": [
    "C49_single_proof",
    "C49_aggregation",
    "C49_same_calls"
   ],
   "note": "One proof and the aggregation, both directions; the calls are independent of the proof bytes."
  },
  {
   "property": "C50",
   "status": "partial",
   "theorems": [
    "C50_operations",
    "C50_contract_partial",
    "C50_text_partial"
   ],
   "note": "C50_operations is complete. C50_contract_partial: proofs that the verifier accepts for reading; the statements must meet the conditions of the passes, which SolCheck.v decides; no subtraction of the identity. C50_text_partial states the same of the printed text. Its hypotheses on the text are decided by SolTextCheck.v and met by the example (C50_text_example)."
  },
  {
   "property": "C51",
   "status": "partial",
   "theorems": [
    "C51_calls_sound_partial",
    "C51_circuit_sound_partial",
    "C51_circuit_sound_any_integers_partial",
    "C51_calls_sound_refuted"
   ],
   "note": "Any satisfying assignment whose read points have flags 0 or 1, whose divisors are not 0 and whose absorbed coordinates are below the modulus comes from a native verification, up to the signs of the final pair (C40). Without the last condition: a verification with other encodings of points. C51_calls_sound_refuted: with x + p in the limbs the challenge differs from the native one."
  },
  {
   "property": "C52",
   "status": "partial",
   "theorems": [
    "C52_calls_complete_partial",
    "C52_circuit_complete_partial",
    "C52_final_pair_partial"
   ],
   "note": "For every list of chip calls of an admissible order and for the whole circuit: the layout ends, the constraints hold, and the cells hold the native values. Missing: the slopes of the tangents the chip computes must exist and sums of points must not cancel (with some points they do not exist, C16_mul_refuted)."
  },
  {
   "property": "C53",
   "status": "partial",
   "theorems": [
    "C53_same_circuit",
    "C53_same_solutions",
    "C53_keys_and_proofs",
    "C53_prover_satisfies_setup_partial"
   ],
   "note": "Same constraints, same public cells, same solutions for any two lists of proofs: proved without further condition. Partial only in that the existence of a satisfying assignment for the circuit of the keys (C53_prover_satisfies_setup_partial) has C52's condition on tangents."
  },
  {
   "property": "C54",
   "status": "proved",
   "theorems": [
    "C54_multi_exp_not_fewer",
    "C54_multi_exp_exact",
    "C54_never_too_few",
    "C54_exact",
    "C54_results_layout",
    "C54_second_region",
    "C54_multi_exp_measured_partial",
    "C54_single_counts_more",
    "C54_exact_single_refuted"
   ],
   "note": "Real rows at most the measured rows for every circuit; equal when no multi_exp has exactly one point. Stated for passes that end; C54_multi_exp_measured_partial additionally shows that a measured multi_exp ends, given the tangent slopes."
  },
  {
   "property": "C55",
   "status": "proved",
   "theorems": [
    "C55_tables_made",
    "C55_tables_bn254",
    "C55_circuit",
    "C55_calls"
   ],
   "note": "accepts (gate and lookups on every row, tables, copies) is equivalent to sat for the aggregation circuit and for any list of chip calls."
  },
  {
   "property": "C56",
   "status": "proved",
   "theorems": [
    "C56_depth",
    "C56_exp",
    "C56_exp_is_ecMul",
    "C56_multiexp",
    "C56_any_words",
    "C56_reverts",
    "C56_bases_checked_refuted",
    "C56_large_scalars_refuted"
   ],
   "note": "Value and exact conditions for a revert, with the room on the stack as a parameter. Two stronger readings are refuted: every base is checked; every word can be a scalar."
  },
  {
   "property": "C57",
   "status": "proved",
   "theorems": [
    "C57_text",
    "C57_printed",
    "C57_passes",
    "C57_nested_refuted"
   ],
   "note": "The text is read by an independent reader of a Solidity subset (SolRead.v, part of the trusted base). Operations nested in operations are refuted; the generator does not make them. C47_text_partial and C50_text_partial carry the results about the contract over to its text."
  },
  {
   "property": "C58",
   "status": "partial",
   "theorems": [
    "C58_canonical",
    "C58_scalar",
    "C58_proof_refuted",
    "C58_inputs_refuted",
    "C58_any_digest_refuted"
   ],
   "note": "False of the contract: C58_proof_refuted (a scalar of the proof plus the modulus, which the native reader refuses), C58_any_digest_refuted (the same for every digest) and C58_inputs_refuted (a public input plus the modulus, any digest). C58_scalar: the native reader reads a scalar exactly if its word is below the modulus. C58_canonical gives the exact condition on final pairs: the words from the fifth on must be below the modulus, the first four always are."
  }
 ]
}