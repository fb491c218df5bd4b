# Design

Formal model, in Coq 8.16.1 with its standard library only, of
`scroll-tech/halo2-snark-aggregator` (source in `/repo`), and machine-checked proofs of the
properties in `properties.jsonl`. `MANIFEST.json` lists the theorems of every property.

Build: `cd rocq && coq_makefile -f _CoqProject -o Makefile && make -j4`.

## 1. Method

* **Circuit code** is modelled as a builder. A chip function is a function from the circuit
  built so far (rows with fixed coefficients, copy constraints, lookups, and the values the prover
  puts into the advice cells) to a result and a larger circuit. *Soundness* theorems quantify over
  **every** assignment of the advice cells that satisfies the emitted constraints (`sat w c`).
  *Completeness* theorems say that the function does not abort and that the prover's own values
  satisfy the constraints.
* **Panics** (`unwrap`, `assert!`, integer underflow, out-of-range index, revert of the contract)
  are `None`.
* **Pure code** (schemas, code generator passes, codecs) is modelled by total functions.
* **Histories**: claims about sequences of calls are about lists of calls of any length, by
  induction with an invariant.
* **External functions** (hash digests, decoding of points, pairing, random generators) are
  parameters of the theorem; see the trusted base.
* **Refuted claims** are theorems `..._refuted` with a concrete witness. The positive theorem is then
  stated under the exact guard that makes it true and carries the suffix `_partial`.
* **Model and proofs are separate**: a model file holds definitions that cite `/repo`; the proofs are
  in other files; `Properties_*.v` hold only the theorems that state the properties, an example that
  meets the hypotheses of each, and `Print Assumptions`.
* **Mutation tests**: `seeded/LOG.jsonl` records edits of the models that imitate realistic bugs
  and the theorems that then fail.

## 2. Files in `rocq/theories`

| models of the code | what |
|---|---|
| `Gate.v`, `GateExtra.v` | `gates/base_gate.rs`, `five/base_gate.rs`, `gates/range_gate.rs`, `five/range_gate.rs` |
| `Integer.v`, `Bn254.v` | `five/integer_chip.rs`, `chips/integer_chip.rs`, `utils.rs` for BN254 |
| `Ecc.v` | `chips/ecc_chip.rs`, `chips/native_ecc_chip.rs` |
| `IntegerHistory.v`, `EccHistory.v` | call sequences over the two chips |
| `Schema.v`, `Plonk.v`, `Keys.v` | `systems/halo2/{evaluation,expression,lookup,permutation,vanish,multiopen,params,verify}.rs`, `arith/field.rs`, `arith/ast.rs` |
| `BuildParams.v` | `VerifierParamsBuilder` and the aggregation driver of `verify.rs` |
| `Calls.v`, `VerifierCalls.v` | the same verifier as the list of calls it makes to its chips, in the order of the Rust code |
| `SolCalls.v` | the calls of the verifier as the Solidity crate runs them (`lib.rs:196-258`), the SHA transcript as the reader's transcript |
| `Poseidon.v`, `PoseidonInst.v` | `hash/poseidon.rs`, `systems/halo2/transcript.rs`, the Poseidon transcript |
| `ShaTranscript.v`, `Bytes.v` | `transcript/sha.rs` |
| `SolIr.v`, `SolScan.v`, `SolPool.v`, `SolAgg.v`, `SolAggDriver.v` | `code_generator/{ctx,aggregate}.rs`, `linear_scan/*`, `aggregate/*` |
| `ChipRun.v`, `SolChip.v`, `SolEmit.v`, `SolSharing.v` | `chips/*.rs`, `transcript/codegen.rs`, `lib.rs` of the Solidity crate |
| `SolText.v` | printing of statements: `to_solidity_string`, `to_typed_string` (`code_generator/ctx.rs`), the body of `get_wx_wg` in the template |
| `SolRead.v` | specification, not a model: a reader and an interpreter of the Solidity subset in which the printer writes |
| `SolTextSpec.v` | specification: the ranges of offsets and constants, the statements that can be printed |
| `Evm.v` | `templates/verifier.sol`: the run-time routines and the meaning of emitted statements |
| `CircuitRun.v` | the calls carried out by the circuit's chips (`circuit/src/chips/*.rs`), the in-circuit transcript, `synthesize_proof` and `synthesize` of `verify_circuit.rs` |
| `VerifyCircuit.v` | `verify_circuit.rs`, `fs.rs`, `chips/encode_chip.rs`, parts of the SDK's `lib.rs` |

| mathematics used by the proofs | what |
|---|---|
| `Algebra.v`, `PField.v`, `Poly.v`, `PowLagrange.v`, `Util.v`, `ListFacts.v` | fields, prime fields, polynomials |
| `Primality.v`, `Bn254Cert.v`, `Bn254Prime.v` | Pocklington certificates: both BN254 moduli are prime |
| `Curve.v`, `CurveIdent.v`, `CurveAssoc.v`, `Bn254Curve.v` | chord-and-tangent group law, associativity |
| `GeneratorCert.v`, `GeneratorOrder.v`, `CurveOrder.v` | (1,2) has order r; every point of the curve has order dividing r |
| `CurveMod.v` | the points of the curve as a module over the scalar field |
| `SolCheck.v` | a checker for the conditions of the generator's passes |
| `SolTextCheck.v` | a checker for the conditions of the printer, proved to decide them |
| `CallOrder.v` | kinds of results in a list of calls, the order of the verifier's calls |
| `Measure.v` | the measuring pass of the floor planner: `multi_exp` with skipped rounds, the first region with it |
| `Grid.v` | the gate and the lookups as configured, fixed columns and selectors, `init_table` (`gates/range_gate.rs:186-295`, `five/range_gate.rs`, `base_gate.rs:692-729`) |
| `Mulexp.v` | `halo2-snark-aggregator-solidity/templates/lagrange.sol` |
| `ExponentRun.v` | runs of calls on multiples of one point follow runs on the multiples' numbers; a sponge for examples |

All other files hold proofs about the models.

## 3. Trusted base

* **The Coq kernel** (and `coqchk`). No `Admitted`, no axiom, no switched-off check, no plugin.
* **`Print Assumptions`** of every theorem in `Properties_*.v` answers *Closed under the global
  context*: no axiom of the standard library is used either. (`coqchk` reports the primitives of
  `Coq.ssr.ssrunder` because a standard library module loads it; no theorem depends on them.)
* **The model is the code**: each definition cites the lines it models; the correspondence was made
  by reading, not by extraction.
* **Parameters of theorems** (universally quantified, so nothing is assumed about them beyond the
  stated hypotheses):
  * the digest of the SHA/Keccak transcript: any function to 32 bytes (C27, C39, C47, C50; the witness of C58_proof_refuted fixes one that
    looks at lengths only);
  * Poseidon constants: any of the right shapes (C26); the concrete permutation is not evaluated;
  * decoding of points and scalars: any partial function on fixed-size blocks (C28, C45, C46); for C51 one
    that reaches every point and scalar;
  * the pairing: any map linear in the first argument, with `e(P, g2) = 0` only for `P = 0` where the
    converse direction of C22 needs it;
  * the modules of commitments in the API part: any module over the scalar field.
* **Meaning given to external components**: halo2 checks the configured gate and lookups on every usable
  row and the two ends of every copy (`accepts` in `Grid.v`; that this is what `sat` says, the notion used
  by all other theorems, is C55); the EVM precompiles 5, 6, 7, 8 and 2 compute modular powers, curve addition,
  curve multiplication, pairing product and digest (`Evm.v`); halo2curves' `G1Affine` is `Curve.v`.

### Modelled and not modelled

Modelled: everything named in section 2. Not modelled, or simplified (also said in the comment of the
definition concerned):

* halo2 itself: layouting (of which C54 proves what the measuring pass needs), keygen, proving, compression of
  selectors (the chips use plain fixed columns). Regions are one
  sequence of rows; the second region of `verify_circuit.rs` continues the rows of the first.
* The probe by which the circuit recognises the measuring pass (`five/base_gate.rs:16-25`): its row is left out in
  both passes, and the pass is a parameter. `bn_to_field` beyond 2^512.
* `KVMap`, logging, timers, thread counts, file system errors other than a missing or short file.
* Random sources (`OsRng`, `rand`): a parameter.
* Code generator: a run of the generic verifier is a list of chip and transcript calls
  (`ChipRun.v`). For the verifier of one proof the list is computed from the verification key
  (`VerifierCalls.v`, `SolCalls.v`) and proved to compute what the verifier computes (C49, C50).
  `read_constant_point` and `read_constant_scalar` of the code generation transcript are never
  called and not modelled. The text of a statement is modelled (`SolText.v`); comments with sample values
  (switched off by constants in `ctx.rs:476-477`) and the substitution of the template engine are not. `SolRead.v`
  is trusted as a description of Solidity: tokens, expressions, statements and their order of evaluation for the
  subset that the printer uses. A literal must be below 2^256; a function with two results is not spread over two
  arguments; a tuple assignment stores from left to right (solc: from right to left, the same for different
  components). The functions that the text calls are those of `Evm.v`. Gas, and lengths beyond 32 bits, are not
  modelled.
* The calldata encoding produced by the JavaScript caller: 32-byte little-endian words.
* `sample_circuit.rs`, examples, benches, tests.

## 4. Properties

Statuses and theorem names are in `MANIFEST.json`. "Refuted" names the reason the unrestricted claim
is false of the code; see section 5.

| id | model, proof, restriction |
|---|---|
| C01 | Each base gate method emits one row; soundness by solving the row equation, completeness by evaluating it. |
| C02 | Induction over the chunks of a weighted sum; the running value passes through the next row. |
| C03 | Row equations over a field without zero divisors. |
| C04 | Same; 0/0 is shown to be unconstrained. |
| C05 | Invariant of every call sequence (`IntegerHistorySound.v`). Partial: refuted with `mul_small_constant`, whose true bound is proved. |
| C06 | CRT: the native check and the limb carries force the integer equation because both sides are below the product of the moduli. |
| C07 | Same, with one quotient limb. Sound and complete. |
| C08 | Limb-wise; subtraction adds a multiple of p that dominates every limb. |
| C09 | Zero test compares with the multiples of p in range; both directions. |
| C10 | Witness quotient checked by multiplication; flag by C09. |
| C11 | Induction over call sequences with recorded overflows. Partial: refuted for 31/31 subtraction and for division after `mul_small_constant`. |
| C12 | Parity of the limbs' integer. Partial: refuted, since p + x is an accepted representation of x. |
| C13 | Case analysis of the slope formula against `Curve.v`; any sequence of operations by induction. Partial: refuted for valid points where the chip panics. |
| C14 | C09 on coordinates. Partial: refuted, flags are not compared. |
| C15 | Curve equation times (1 - flag). Partial: refuted, the flag may be 2. |
| C16 | Window tables and double-and-add against `smul`, induction over windows; every curve point has order dividing r. Completeness: `constant_mul` for every point and scalar; `mul` and `shamir` under the condition that the tangent slopes they need can be computed (`Properties_EccHonest.v`; partial), with certificates for 300·G and 300·G + 17·(2G) in `EccLucky.v`. `C16_mul_refuted`: a curve point that `mul` can multiply by no scalar. |
| C17 | Bits by `assert_bit`, weighted sum by C02. |
| C18 | Structural induction over the schema. |
| C19 | Injectivity of the printed keys. Partial: refuted for equal circuit names. |
| C20 | From C18 and C21. Partial: refuted for one proof with one rotation. |
| C21 | The fold computes the GWC equation; completeness for honest openings, soundness by counting roots in u. |
| C22 | Linear algebra over the pairing (Vandermonde). |
| C23 | Lagrange polynomials by roots; abort exactly on the domain points. |
| C24 | The constraint list of halo2 written independently (`PlonkSpec.v`) and compared. |
| C25 | Loop invariant on the bits. Partial: refuted for exponents from 2^31 on (no termination). |
| C26 | Optimised against textbook Poseidon rounds, absorption bookkeeping; circuit version by C01 and C02. |
| C27 | Induction over the operations; injectivity up to a digest collision. |
| C28 | Layout theorem from C45. Partial: refuted, trailing bytes that do not start with a point are ignored. |
| C29 | Sum over the columns. |
| C30 | Invariant: every cached expression holds its value. |
| C31 | Single-assignment programs, simulation. Partial: refuted for t + t. |
| C32 | Invariant over all sequences of allocations and frees. |
| C33 | Simulation with live intervals; memory size. |
| C34 | Simulation of the loop. Partial: refuted for a single absorbed point. |
| C35 | Decoding of the packed word. Partial: refuted for large offsets. |
| C36 | Chain invariant. Partial: refuted, abandoned chains drop statements. |
| C37 | Run invariant. Partial: refuted for descending offsets. |
| C38 | Modular arithmetic on words. Partial: refuted for two corner cases on non-canonical words. |
| C39 | Buffer invariant including its reuse after a squeeze. |
| C40 | `reduce` gives x, y below 2^254; packing is injective. Partial: refuted, the sign of a point is not bound. |
| C41 | Bytes of little-endian words, lists of any length. |
| C42 | Handover of the proof lists. Partial: refuted, `proofs` is ignored. |
| C43 | Negation through the ordinate. Partial: refuted for the identity. |
| C44 | Lists. |
| C45 | Reader against the list of protocol events (`ReaderSpec.v`), both directions. |
| C46 | Composition of C45, C29, C19 and C22. |
| C47 | Composition of C30, C31, C33-C37, C38, C39, and of C57 for the printed text (`C47_text_partial`). Partial: conditions of the passes; refuted for repeated products. |
| C48 | Injectivity of file names. Partial: refuted for names that end in digits. |
| C49 | Simulation: every function of the verifier, written as a generator of calls (`VerifierCalls.v`), against its direct model (`Plonk.v`, `Schema.v`, `BuildParams.v`); relations between cells and values are preserved by further calls. The loop that reads opening points until it fails is unrolled for a given number of points. |
| C50 | C49 at the group of points of BN254 and the SHA transcript, call by call against `ChipRun.v`; composed with C47, and with C57 for the printed text (`C50_text_partial`, with `C50_text_example` in `Properties_TextKey.v`). Partial: conditions of the passes and of the printer (decided by `SolCheck.v` and `SolTextCheck.v`, met by the example, a key with gates and a permutation), no subtraction of the identity. |
| C51 | Each chip call against its native meaning (C01-C17 per operation, sponge by C26), then induction over the list of calls, instances and proof bytes being reconstructed from the end of the run; composed with C49 and C40. Partial: identity flags of read points are bits, no division by zero, absorbed coordinates below the modulus (or else a verification with hints for the transcripts, `CircuitRunSpec.v`), signs of the final pair. `C51_calls_sound_refuted`: without the last condition but one the statement fails. |
| C52 | Converse of C51, call by call: completeness of each chip call (C05-C17), induction over the list with the invariant that every cell holds the native value; an order of the calls that all verifications have (`CallOrder.v`: points that are added or absorbed are assigned, normalised or results of the chip) is derived from the verifier itself. Examples: a list of calls and one whole proof, whose run is computed on the multiples of the generator (`ExponentRun.v`). Partial: the slopes of the tangents exist and no sum of points cancels in the native run (as C13, C16). |
| C53 | Relational reading of the builder (`Shape.v`, `ShapeRun.v`): two runs of the same chip function from contexts with the same offset and constraints, on arguments with the same cells, bounds and cached values, end with the same constraints and cells; for every chip function, the sponge, every call, and with C49 for the whole circuit. `C53_keys_and_proofs`: the circuits of `Setup` and `CreateProof` (C42) differ only in the proofs. The number of opening points read from each proof must be the same (the reader takes points until one fails, C49), as must the lengths of the instances. `C53_prover_satisfies_setup_partial` has the condition of C52. |
| C54 | Model of the measuring pass (`Measure.v`: `expand`, `shamir` in shape mode, the first region with it). The relational reading of C53 with a relation between row numbers (`MeasureForms.v`, `MeasureProofs.v`): the overflow counts and cached slopes of the points, on which the number of rows depends, are the same in the skipped rounds as in the rounds laid out, because the measuring pass stands in the accumulator for the inner sum and both have the form of a sum. That every `multi_exp` of the verifier is given normalised, read or constant points is proved by a pass over the generated calls (`CallExact.v`). Too few rows: never. Exactly as many: if no `multi_exp` has exactly one point; with one point the stand-in has no cached slope, unlike the picked point, and at least 62 rows too many are counted (`MeasureSingle.v`; finding 30). The two are stated for passes that end; that one measured `multi_exp` ends over BN254, and what it leaves, is `C54_multi_exp_measured_partial` (`MeasureHonest.v`; missing: that the slopes it needs can be computed, as in C16); both passes end in the examples. The results of the two passes have the same layout, and from such the second region takes the same rows. |
| C55 | `Grid.v` models `configure` of both gates, the fixed columns and selectors, and `init_table`. A log of lines, one per row, is an invariant of the relational reading of C53 (`GridProofs.v`), whose rule for looked-up rows now says which widths occur; then `accepts` and `sat` are compared row by row. Rows without a line have all fixed cells 0 and ask for nothing. `C55_tables_made`: when `init_table` succeeds (moduli of up to 270 bits). |
| C56 | Induction over the nested calls of `exp` and over the loop, with the precompile semantics of `Evm.v` and the group law (`CurveAssoc.v`). The room on the EVM's stack is a parameter (`frames`); the number of nested calls is computed, and the conditions for a revert are exact. Refuted: every base is checked; every word can be a scalar when a call takes five words of the stack (finding 31). The library is not referenced by the generator. |
| C57 | The printed body of `get_wx_wg` is read by an independent reader (`SolRead.v`: lexer, recursive-descent parser, interpreter of Solidity statements) and does what the statements do. Lexing of concatenated pieces (`SolTextLex.v`), parsing and meaning of every printed form, loops by induction on the rounds left (`SolTextProofs.v`). `C57_printed` gives the exact condition under which printing does not panic; `C57_passes` (an invariant of each merging pass, `SolTextPasses.v`) shows that the passes keep it and the ranges of offsets. Composed with C47 and C50: `C47_text_partial` and `C50_text_partial` are about the text. Refuted for nested operations on points, which the generator never makes (well-typedness of the final program is proved for C31-C37). |
| C58 | Partial: refuted by concrete programs that meet the conditions of C47 (`C58_proof_refuted` with a challenge and a fixed digest, `C58_any_digest_refuted` and `C58_inputs_refuted` for every digest). `C58_scalar` states exactly which words the native reader reads as scalars, `C58_canonical` exactly which final pairs carry public inputs of the native verifier (bounds of the shifted limbs, induction over the copied words). |

## 5. Findings

Each is a theorem unless marked (reading only).

Circuit library:
1. `mul_small_constant` does not scale the recorded overflow of the limbs, so the limb bound (C05) and
   then `is_zero` (C09) and `div` (C11) fail after it.
2. Subtracting integers that both have 31 recorded overflows aborts (C11), also at the level of points.
3. `get_last_bit` is not determined by the field element: 0 and p have different parity (C12).
4. Doubling a freshly assigned point, or adding it to itself, aborts for some valid points: when the
   slope is small, the chip subtracts thrice the square of the abscissa from a smaller integer (C13).
   `mul` doubles its point for the table, so it aborts for such a point whatever the scalar (C16).
5. `assert_equal` on points does not compare the identity flags (C14).
6. The flag cell of an assigned point is not constrained to a bit: 2 is accepted (C15).
7. The default `mul_add_with_next_line` of the gate trait is wrong; it is overridden (C01).
8. `div_unsafe(0, 0)` accepts any quotient (C04).
9. `encode_point` ignores the identity flag; `assign_constant_point_with_curvature` caches `y/x`, not
   the slope of the tangent; `PREREQUISITE_CHECK` is off (reading only).

Verifier API:
10. Products of commitments lose a factor (C18).
11. Circuits with the same name share keys; the SDK names circuits by folder, so all its circuits collide
    (C19, C42_folder_keys_collide).
12. A single proof with a single rotation cannot be evaluated (C20).
13. `pow_constant` does not terminate for exponents from 2^31 on (C25).
14. Sponge: across squeezes, different histories reach the same state (C26).
15. Trailing bytes of a proof are ignored unless they start with a point (C28).
16. Queries are grouped by rotation, not by point; instance keys lack the proof index; only
    `advice_commitments[0]` is returned; `squeeze_instance_commitment` swallows errors (reading only).

Code generator and contract:
17. The common-subexpression cache shares equal products, and the fusion pass then drops the
    multiplication from one use in `a*c + a*c`: the contract can accept although the native check fails
    (C31, C47).
18. A single absorbed proof point is emitted as a scalar update (C34).
19. Offsets from 255 (proof) or 256 (memory) on are packed wrongly (C35).
20. Abandoned power chains drop statements (C36).
21. Descending offsets: the debug build panics, the release build emits a contract that reverts (C37).
22. `fr_div` by a multiple of the order returns 0; `fr_sub` of a word above the order is wrong (C38).
23. `ecc_sub` of the identity reverts (C43).
24. The contract does not compare scalars of the proof or public inputs with the modulus. It accepts a proof that the
    native reader refuses (C58_proof_refuted, C58_any_digest_refuted), and one proof for two final pairs whose words differ by the modulus
    (C58_inputs_refuted): a caller that takes `target_circuit_final_pair[4..]` as numbers sees two statements.
    Reading only: `CodegenTranscriptRead` hashes with Keccak where
    the other readers use SHA-256; the pairing result is only logged in `lib.rs:269-284`;
    `lib.rs:186-187` takes the G2 points for the final pair from the parameters of the verify circuit, so the
    target circuits must share its setup.

Aggregation circuit:
25. The sign of a point of the final pair is not bound by the public inputs when `y < 2^254 - p`, about
    a third of all points: `reduce` also accepts `y + p`, whose parity is the opposite (C40_sign_refuted).
26. A truncated instance file is accepted (C41_truncation_refuted).
27. `MultiCircuitsCreateProof::call` uses `template_proofs` and ignores `proofs` (C42_refuted).
28. File names of sample proofs collide for circuit names that end in digits (C48).
29. The in-circuit transcript absorbs the limbs of a coordinate without requiring them to be below the modulus:
    with x + p in the limbs all constraints hold and the challenge is another one than the native
    verifier draws (C51_calls_sound_refuted). A point read with its identity flag set may have any
    coordinates, so the prover chooses what is absorbed for it (`loose` in `CircuitRunSpec.v`).
30. The measuring pass counts more rows than a `multi_exp` of a single point takes: it stands in the accumulator
    for the picked point, which comes with its slope cached (C54_exact has the condition), and so
    its slope is computed in each of the 62 skipped rounds (C54_single_counts_more, C54_exact_single_refuted). Harmless, as the
    region only gets larger; the sum of one point occurs for a single proof opened at two points.
31. `lagrange.sol`: `exp` recurses once per bit and once more per bit that is 1. A call holds its return address, two
    arguments, the result and a local variable, so about 204 nested calls fill the 1024 words of the EVM's stack and
    scalars of more than 204 bits, that is most scalars, make `multiexp` fail (C56_large_scalars_refuted; the words
    per call are the compiler's choice and not part of the model). A base that is not a point is accepted if
    its scalar is 0 (C56_bases_checked_refuted). The library is not used by the generated contract.
