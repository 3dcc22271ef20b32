# Prio+ in Rocq: design

A functional model, in Gallina over `Z`, `bool` and `list`, of the Prio+ client and servers in
/repo (KuraTheDog/Prio-plus, cpp), and theorems about it for all inputs, random draws, kernel
behaviours, schedules and histories.  Nothing of /repo was built or run; it was read as text.

Read first: section 1 (what must be trusted), then any `P_*.v` next to the `Spec*.v` it imports.
Each theorem there is stated with the vocabulary of a `Spec*.v` file and the model's top-level
functions; the proofs need not be read.

## 1. Trusted base

1. **Coq 8.16.1's kernel** (and the virtual machine for `vm_compute`, used in examples, in the
   primality certificate of the modulus and in refutations).  No `native_compute`, no plugin.
2. **Axioms.**  `Print Assumptions` stands under each theorem.  It prints *Closed under the global
   context* for every theorem of every `P_*.v` file except those of `P_Variance.v` (C49), which
   use the axioms of the standard library's real numbers and of the classical facts Flocq
   relies on:
   `ClassicalDedekindReals.sig_not_dec`, `ClassicalDedekindReals.sig_forall_dec`,
   `FunctionalExtensionality.functional_extensionality_dep`, `Classical_Prop.classic`.
   There is no axiom, parameter, admitted lemma or switched-off check in this development.
3. **Libraries.**  Coq's standard library; Flocq 4.1.0 in `Variance.v`, `SpecVariance.v`,
   `VarianceFacts.v`, `P_Variance.v` only.
4. **The model is the code.**  The translation was made by hand, function by function; every
   definition cites file and lines.  Section 3 lists what is simplified and section 4 what is left out.
5. **Contracts of the libraries the code calls**, modelled by executable definitions or by
   universally quantified arguments, never by axioms:
   * FLINT `fmpz`: unbounded integers with floor `mod`; `fmpz_invmod` the inverse modulo a prime;
     `fmpz_powm`; `fmpz_mod_poly_{mul,derivative,rem,get_coeff}` on coefficient lists;
     `fmpz_randm(x, m)` a raw draw reduced mod m; draws come from an arbitrary tape `T`.
   * FLINT `fmpq_mat_inv`: if the matrix is invertible some matrix `inv` with `inv * X = 1`
     (then unique); if singular, nothing is known of the result.
   * `emp::PRG`: block `i` is `g i`, where `g` is arbitrary.  Theorems say what they assume of
     it: `is_blocks` (16 bytes each) or `prg_ok` (also: different for the 2^64 counter values).
   * oblivious transfer (`emp::IKNP`/`OT_Wrapper`): the ideal functionality.  Both sides block
     until both are there, the receiver obtains the chosen message of each pair and the sender nothing.
   * TCP: a FIFO of bytes with a bounded buffer of any capacity >= 1 in each direction; `recv`
     returns any non-empty part of what is there; `send` blocks until everything is handed over.
   * `std::unordered_map`: iteration is any permutation of the entries (`fair`); for C51 also
     that it depends on the keys only (`by_keys`).
   * IEEE binary64 for `double`, round to nearest even.
6. **Secrecy is possibilistic.**  C09, C43, C47, C50, C51 say that every secret is compatible
   with every observation, for some (mostly: exactly one) choice of the random draws.  Where
   existence is also uniqueness this is perfect secrecy for uniform draws; the `*_exact` theorems of
   C51 map draws to draws by a fixed xor, so distributions are equal.  Probabilities themselves are not formalised, nor is any computational assumption on emp::PRG or the transfers.

## 2. Files

| layer | model | vocabulary | proofs | theorems |
|---|---|---|---|---|
| words, bytes | `Words` | | `WordsFacts`, `Cong` | |
| constants, records | `Constants` | | `FieldFacts` | `P_Poly` |
| sockets, messages (net_share.cpp) | `Net` | `SpecNet` | `NetFacts`, `NetMsg` | `P_Net` |
| two server processes | `Proc` | | `ProcFacts`, `RelFacts`, `Exec`, `ExecBuf` | |
| sharing, triples, daBits (share.cpp) | `Share` | `SpecShare` | `ShareFacts` | `P_Share` |
| protocols over OT (ot.cpp) | `OT` | `SpecShare` | `OTFacts` | `P_OT` |
| store of correlated randomness (correlated.cpp) | `Correlated` | `SpecStore` | `MpcFacts`, `CorrelatedFacts` | `P_Correlated` |
| roots, FFT, evaluation (constants.cpp, poly/) | `Poly` | `SpecPoly` | `PolyFacts`, `FftFacts`, `TreeFacts`, `PolyProps`, `PolyExamples` | `P_Poly` |
| circuits (circuit.h) | `Circuit` | `SpecCircuit` | `CircuitFacts` | `P_Circuit` |
| proofs of validity (client.h, server.h, server.cpp) | `Snip` | `SpecSnip` | `SnipFacts`, `SnipBatch`, `SnipSums` | `P_Snip` |
| operations (server.cpp) | `ServerOps` | `SpecServer`, `SpecStat`, `SpecFreq` | `TableFacts`, `Server*`, `Stat*`, `Freq*`, `MaxRepeats` | `P_Server`, `P_Stat`, `P_Freq`, `P_Order` |
| client (client.cpp) | `ClientOps` | `SpecClient` | `ClientFacts`, `ClientProps`, `StatClient` | `P_Client` |
| main loop (server.cpp) | `Main` | `SpecMain` | `MainFacts` | `P_Main` |
| client program (client.cpp main) | `ClientMain` | `SpecSession` | `SessionFacts`, `SessionFreq` | `P_Session` |
| regression (circuit.h) | `LinSolve` | `SpecLinReg` | `LinSolveFacts`, `LinRegFacts` | `P_LinReg` |
| variance in doubles | `Variance` | `SpecVariance` | `VarianceFacts` | `P_Variance` |
| secrecy | | `SpecHide`, `SpecSecret`, `SpecPrivacy`, `SpecStatPrivacy`, `SpecFreqPrivacy` | `HideFacts`, `Secret*`, `ViewFacts`, `Privacy*`, `StatView`, `StatPrivacy`, `StatOps`, `FreqView`, `FreqPrivacy`, `FreqHide` | `P_Hide`, `P_Secret`, `P_Privacy`, `P_StatPrivacy`, `P_FreqPrivacy` |
| `he_triples.cpp` (deprecated, unused) | `HeTriples` | `SpecHe` | `HeFacts` | `P_He` |
| operations on arbitrary bytes | `ServerOps` | `SpecAvail` | `AvailFacts` | `P_Avail` |
| honest clients among others | `ServerOps`, `ClientOps` | `SpecRobust` | `RobustFacts` | `P_Robust` |
| VAR, LINREG by daBits | `DabitOps` | `SpecDabit`, `SpecStat` | `DabitFacts`, `DabitRun` | `P_Dabit` |
| servers that do not fork | `NoFork` | `SpecNoFork` | `NoForkFacts`, `NoForkRun`, `NoForkProps` | `P_NoFork` |
| counting challenges | `Snip`, `ServerOps` | `SpecCount` | `CountFacts`, `CountProps` | `P_Count` |
| which submissions are accepted | `Snip`, `ServerOps` | `SpecAccept` | `AcceptFacts`, `AcceptProps` | `P_Accept` |
| debugging runs of VAR, LINREG | `DebugStat` | `SpecDebugStat` | `DebugStatFacts`, `DebugStatProps`, `DebugStatRows`, `DebugStatLin` | `P_DebugStat` |
| a dishonest other server | `ServerOps` | `SpecPeer` | `PeerFacts`, `PeerProps`, `PeerStat`, `PeerLin`, `PeerFreq`, `PeerSingle` | `P_Peer`, `P_Single` |
| a curious other server | `ServerOps` | `SpecRogue` | `RogueFacts`, `RogueProps`, `Rogue0`, `RogueAttack` | `P_Rogue` |
| a curious other server, VAR, LINREG | `ServerOps`, `Snip` | `SpecRogueStat` | `RogueStat`, `RogueBend` | `P_RogueStat` |
| the other server stops, VAR, LINREG | `Alone`, `ServerOps`, `Snip` | `SpecForsaken` | `ForsakenFacts` | `P_Forsaken` |
| the other server stops, FREQ | `Alone`, `ServerOps`, `Correlated` | `SpecForsaken`, `SpecFreq` | `FreqForsaken` | `P_FreqForsaken` |
| equal distributions | `ClientOps`, `ServerOps`, `Snip` | `SpecExact`, `SpecStatExact` | `ExactFacts`, `ExactMax`, `ExactServer`, `StatExact`, `StatPair`, `StatPairs`, `StatDraws`, `StatExactOps` | `P_Exact`, `P_StatExact` |
| a server left alone | `ServerOps`, `Alone` | `Alone` | `AloneFacts` | `P_Alone` |
| `client.cpp` debugging runs (`*_invalid`) | `DebugOps` | `SpecDebug` | `DebugFacts`, `DebugProps` | `P_Debug` |

How runs are reasoned about: a server function is a `proc`, a tree of communication actions.
`Proc.v` gives two such processes a small-step semantics with bounded buffers.  The semantics has
the diamond property (`ProcFacts`), so one run that ends in (a, b) proves `always p q a b`: every
schedule ends, after the same number of steps, in (a, b), never stuck, never undefined.
`RelFacts` composes such runs with relations between the two results.

## 3. Modelling conventions and simplifications

* Machine words are `Z`, reduced explicitly `mod 2^64` / `mod 2^32`.  Sizes that cannot exceed
  memory (counts of list elements) are `nat`; products of sizes (`size_t`) are assumed not to
  overflow, except `total * (B+1)` in MAX/MIN where the limit is a hypothesis.
* Undefined behaviour (out-of-bounds access, division by zero, uninitialised booleans, shifts
  by the word size) is the outcome `Undef`/`None`, never assumed away: theorems about runs
  include that it is not reached, and theorems named `*_undefined` say where it is.
* Uninitialised stack memory is an arbitrary argument (`junk`).  Records read from a client go through
  `recv_in` as in the code, stale buffers included.
* All draws are arguments, quantified universally.  Each draw is at a fresh position of its tape.
* `fork()` in `CorrelatedStore` and in the exchange functions: the child sends, the parent
  receives, both complete before the function returns (action `Xchg`).
* Blocking `send` on a socket hands over all bytes; its error return is not modelled.
* Build-time constants: `USE_OT_B2A` true (false: `DabitOps.v`), `LAZY_PRECOMPUTE` true,
  `do_fork` true (false: `NoFork.v`), `CLIENT_BATCH` true
  (false: `separate` in `SpecPrivacy.v`), `DEBUG_INVALID` false (true: `DebugOps.v`, `DebugStat.v`), `INVALID_THRESHOLD` 0.5,
  `RANDOMX_THRESHOLD` 1e6.  `Correlated.v` has `lazy` as a parameter.
* Timing, printing (other than answers), byte counts and memory management are left out, except that freeing a
  submission twice (`reused` in `ServerOps`) is undefined behaviour.

## 4. Code that is not modelled

| code | why |
|---|---|
| he_triples.cpp: the PALISADE library | contract `he_ok` in `SpecHe.v`; that encryptions hide is not stated |
| ot.cpp:267-378, share.cpp:29-44, parts of poly/poly_batch.c and server.h:22-41, 58-68 | commented out |
| fmpz_utils array helpers, `fmpz_from_block` | allocation; unused |
| correlated.cpp `printSizes`, destructors, `*_clear` functions | printing, memory |
| server.cpp:34-118 | `bind`/`listen`/`connect`, reporting |
| client.cpp main: conversion of the arguments from text (`atoi`), sockets | arguments are numbers and names in `ClientMain` |
| emp-tool / emp-ot internals, FLINT internals, kernel | contracts above |
| conversion of the regression's result to `double` (`fmpq_get_d`) | C45 is about the exact rationals |
| failing `send`, signals; crash of a server, except as in C60, C71 and C72 | |


## 5. Properties, one by one

Statements are in `properties.jsonl`; theorem lists in `MANIFEST.json`.  "Status" is the
manifest's.  Theorems ending in `_refuted` are counterexamples: the claim in its full form is
false of the model, and of the code.

### C01 Byte-stream reassembly (proved)

Model: `recv_in` against an arbitrary script of kernel results.  Induction on the script: the buffer is the requested prefix of the stream, whatever the chunks.

Theorems: `recv_reassembles`, `recv_all_or_eof`.

### C02 End of stream is reported (proved)

As C01; the loop ends with 0 exactly when the stream ends before the request is satisfied.

Theorems: `recv_eof_reported`.

### C03 A failing receive is reported as a failure (partial)

As C01 with error results in the script.  The full claim is refuted: a -1 in the middle makes the loop's arithmetic shift the buffer, and a later success hides it.  Partial theorems: the error comes first, or persists.

Theorems: `recv_error_reported_refuted`, `recv_error_first_reported_partial`, `recv_error_persistent_reported_partial`.  False of the code: an error in the middle of a message followed by a successful call makes the receive return success with a shifted buffer (recv_error_reported_refuted). Proved: an error on the first call, or one that persists, is reported.

### C04 Bit vectors round-trip (proved)

Encoder and decoder as functions on byte lists (and as processes); inverse for any continuation of the stream, by induction on the length.

Theorems: `bool_batch_roundtrip`, `bool_roundtrip`.

### C05 Integer messages round-trip (proved)

As C04, for each integer type, with the exact range; `size_roundtrip_iff` gives the limit 2^32.

Theorems: `int_roundtrip`, `uint32_roundtrip`, `uint64_roundtrip`, `ulong_roundtrip`, `uint64_batch_roundtrip`, `ulong_batch_roundtrip`, `size_roundtrip`, `size_roundtrip_iff`, `string_roundtrip`, `string_roundtrip_empty_refuted`.  Non-empty strings; the empty string is not received (string_roundtrip_empty_refuted).

### C06 Field elements round-trip (proved)

As C04; base-256 expansion of any non-negative integer with its length prefix, and batches with a fixed width.

Theorems: `fmpz_roundtrip`, `fmpz_batch_roundtrip`.

### C07 Protocol messages round-trip (proved)

As C04, composing the codecs; batches of any length.

Theorems: `Cor_roundtrip`, `CorShare_roundtrip`, `CorShare_batch_roundtrip`, `BeaverTriple_roundtrip`, `BeaverTripleShare_roundtrip`, `BoolTriple_roundtrip`, `DaBit_roundtrip`, `DaBit_batch_roundtrip`, `EdaBit_roundtrip`, `EdaBit_batch_roundtrip`, `ClientPacket_roundtrip`.

### C08 Additive sharing reconstructs (proved)

`split_share` on an arbitrary draw; modular arithmetic.

Theorems: `split_share_reconstructs`.

### C09 One additive share reveals nothing (proved)

For each value and each share there is exactly one draw (modulo p) giving that share.

Theorems: `split_share_first_uniform`, `split_share_second_uniform`.

### C10 Multiplication triples are correct (proved)

Modular arithmetic over arbitrary draws; for the lazily made triples a run of the two processes.

Theorems: `new_triple_correct`, `triple_shares_correct`, `lazy_triple_correct`.

### C11 daBits are doubly-authentic (proved)

As C10; exclusive or of bits against differences mod p.

Theorems: `local_dabit_correct`, `joint_dabit_correct`, `local_edabit_correct`, `bool_array_value`, `edabit_int_value`.

### C12 Proof domain size (proved)

Loop invariant over the 32-bit doubling loop; `..._bound_sharp` shows where it stops being right.

Theorems: `next_power_of_two_least`, `next_power_of_two_bound_sharp`.

### C13 Oblivious bit sums (proved)

Runs of the two processes over ideal OT; induction on the list; sums modulo 2^64.

Theorems: `bitsum_correct`, `bitsum_any_modulus_refuted`.  For modulus argument 0 (2^64), the only one used; with a non-zero modulus the function is wrong (bitsum_any_modulus_refuted).

### C14 Oblivious integer conversion (proved)

As C13, with the weights 2^j and the reduction of masks; the hypothesis `width_ok` is exact enough to be refuted from 49 bits on.

Theorems: `intsum_correct`, `b2a_ot_correct`, `width_ok_field`, `intsum_all_widths_refuted`.  Wrong from 49 bits on with modulus p (intsum_all_widths_refuted).

### C15 Boolean triples from oblivious transfer (proved)

As C13; the two cross terms.

Theorems: `bool_triples_correct`.

### C16 Shared AND (proved)

Algebra of Boolean Beaver triples plus one exchange; both flavours (AND with any number of bits).

Theorems: `shared_and_correct`.

### C17 Shared binary addition (proved)

Ripple-carry adder as in the code; induction on the number of bits; invariant: shares of the carry.

Theorems: `shared_addition_correct`.

### C18 Boolean-to-arithmetic conversion (proved)

daBit conversion; for `multi` the adder of C17 and then one daBit per bit.  The refuted width is a concrete run.

Theorems: `b2a_single_correct`, `b2a_multi_correct`, `b2a_multi_width32_refuted`.  Wrong at 32 bits (b2a_multi_width32_refuted).

### C19 Correlated randomness stays correlated and is never reused (proved)

State machine over histories of store operations on both servers; invariant: the two queues are correlated element-wise and positions of the tapes are never used twice.

Theorems: `store_history_correct`.

### C20 Validation circuits decide the claimed relation (proved)

Induction on the list of gates (acyclic by position); the circuits of VAR and LINREG are shown to decide the relation for every width and degree.

Theorems: `eval_exists`, `eval_correct`, `check_var_decides`, `check_linreg_decides`, `check_circuits_wf`.

### C21 Circuit evaluation on shares is linear (proved)

Induction on gates: shares of wires add to the wires.

Theorems: `import_wires_shares`, `get_mul_shares_shares`.

### C22 FFT is polynomial evaluation, inverse FFT is interpolation (proved)

Induction on log2 N, roots of unity of order N.

Theorems: `fft_evaluates`, `fft_evaluates2`, `fft_interpolates`.

### C23 Evaluation from point values (proved)

Product tree, derivative and barycentric weights: polynomial identities modulo the prime, Lagrange interpolation is unique.

Theorems: `eval_from_points`, `eval_from_repeated_points_refuted`.  For distinct points; with repeated points the result is wrong (eval_from_repeated_points_refuted), the code only uses distinct roots of unity.

### C24 Honest proofs are accepted (proved)

C21-C23 put together: the honest client's packets make both checks zero.

Theorems: `honest_accepted`.  Circuits with fewer than 2^18 multiplications (limit of the root tables).

### C25 Dishonest proofs are rejected except for few random challenges (proved)

If a wire relation fails then f*g-h is a non-zero polynomial of degree below 2N: all challenge points but at most 2N expose it; root counting modulo p.  For the other points the random combination of the checks accepts for at most one value of one of its coefficients.

Theorems: `dishonest_rejected`, `verdict_total`, `dishonest_rejected_every_point_refuted`.  For circuits with fewer than 2^18 multiplications. dishonest_rejected_every_point_refuted shows that the exceptional points exist: a client knowing the challenge point can forge a proof.

### C26 Both servers reach the same verdict (proved)

Batched check over the processes: both servers open the same sums.

Theorems: `batch_validated`.

### C27 BITSUM returns the sum (proved)

Process runs for arbitrary submissions at both servers (`arrives`): table of first submissions, intersection announced, C13.  `bit_sum_run`: with the honest client of `ClientOps`.

Theorems: `bit_sum_correct`, `bit_sum_run`.

### C28 INTSUM returns the sum (proved)

As C27 with C14 modulo 2^64 and the range check.

Theorems: `int_sum_correct`, `int_sum_run`.

### C29 AND / OR return the conjunction / disjunction (proved)

As C27 with xor of 64-bit words; the exact event in which encodings cancel is stated.

Theorems: `and_or_correct`, `and_or_decided`, `and_or_run`, `and_or_answer`.

### C30 MAX / MIN return the extremum (proved)

As C29 with rows; `max_min_undefined` where the rows cancel everywhere.

Theorems: `max_min_correct`, `max_never_exceeds`, `max_attained`, `max_min_undefined`, `max_min_run`.

### C31 VAR / STDDEV aggregate exactly (proved)

Process runs: records, SNIP batches (C24-C26), conversion with daBits or OT (C14, C18), sums mod p.  Soundness for cheaters through C25.

Theorems: `var_op_correct`, `var_run`, `var_sums_exact`, `judged_once`, `var_cheater_rejected`, `var_square_exact`, `var_square_exact_24_refuted`, `var_nothing_undefined`.  Widths up to 24 bits. Theorems are about the values num_valid, sum, sum of squares that enter the final floating point formula. An operation without any acceptable record at server 1 is undefined behaviour (var_nothing_undefined).

### C32 LINREG aggregates exactly (proved)

As C31 with the moments of degree `degree`.

Theorems: `linreg_op_correct`, `linreg_run`, `linreg_sums_exact`, `linreg_cheater_rejected`, `linreg_nothing_undefined`.  Widths up to 24 bits, num_quad + num_x < 2^18. Theorems are about the moment sums passed to SolveLinReg.

### C33 FREQ counts (partial)

As C31 with one-hot vectors; the batch check is shown to be unsound.

Theorems: `freq_run`, `freq_batch_passed`, `freq_checked_one_by_one`, `freq_counts_add_up`, `freq_repeats`, `freq_only_one_hot_refuted`.  First part (honest clients: exact histogram) proved. Second part is false of the code: freq_only_one_hot_refuted exhibits a batch of submissions none of which is one-hot and which is counted; freq_checked_one_by_one proves it when the batch check fails, freq_counts_add_up bounds the sum of the counts.

### C34 One submission per identity (proved)

The operation on submissions equals the operation on the first submission of each identity.

Theorems: `bit_sum_repeats`, `int_sum_repeats`, `and_or_repeats`, `max_min_repeats`, `var_repeats`, `linreg_repeats`, `freq_repeats`, `repeats_no_effect`.  All operations.

### C35 A single client has bounded influence (proved)

Difference of two runs differing in one client.

Theorems: `bit_sum_bounded_influence`, `int_sum_bounded_influence`.

### C36 Invalid threshold (partial)

Part of the operation theorems: the answer is RET_INVALID exactly under the arithmetic condition on num_valid and total.

Theorems: `bit_sum_correct`, `int_sum_correct`, `and_or_correct`, `max_min_correct`, `var_op_correct`, `linreg_op_correct`, `freq_checked_one_by_one`, `freq_batch_passed`.  Proved for BITSUM, INTSUM, AND, OR, MAX, MIN, VAR, STDDEV, LINREG, and for FREQ when the batch check fails. When the batch check of FREQ passes, the code counts every identity server 1 announced as valid, also those unknown to server 0 (freq_batch_passed states this threshold).

### C37 No deadlock, schedule-independent result (partial)

`always` in the operation theorems is termination of every schedule with any buffers; for FREQ the bytes left are computed.

Theorems: `bit_sum_correct`, `int_sum_correct`, `and_or_correct`, `max_min_correct`, `var_op_correct`, `linreg_op_correct`, `freq_checked_one_by_one`, `freq_batch_passed`, `freq_run`, `freq_small_buffers_block`, `freq_more_identities_undefined`.  Proved for every operation but FREQ. FREQ with a passing batch check leaves bytes in the channel: it ends if the buffers hold them, and otherwise server 1 blocks forever (freq_small_buffers_block), so the claim is false of the code for FREQ.

### C38 No residue between operations (partial)

Main loop as a process; induction on the sequence of connections, each operation leaving empty channels and a correlated store.

Theorems: `sequence_of_operations`, `servers_from_start`, `bit_sum_alone`, `int_sum_alone`, `and_or_alone`, `max_min_alone`, `var_alone`, `linreg_alone`, `freq_alone`, `unknown_alone`, `bit_sum_correct`, `int_sum_correct`, `and_or_correct`, `max_min_correct`, `var_op_correct`, `linreg_op_correct`, `freq_batch_passed`, `freq_after_freq_refuted`.  Sequences of any length of every operation, and of FREQ with a failing batch check, answer as each operation alone. Missing: after a FREQ whose batch check passes bytes are left (freq_batch_passed) and the next FREQ announces wrong counts (freq_after_freq_refuted), so the claim is false of the code there.

### C39 Challenge point consistency (proved)

Invariant over the main loop: both servers hold the same point after start and after every renewal.

Theorems: `challenge_point_consistent`, `startup_point_agrees`.

### C40 Identities are well-formed and injective (proved)

Byte-level model of pub_key_to_hex; injectivity; distinct counter blocks.

Theorems: `identity_well_formed`, `identity_injective`, `identities_distinct`.

### C41 Client crash leaves only whole records (partial)

Decoder of a truncated stream; entries come from whole records, except the stale one (refuted).

Theorems: `bit_sum_correct`, `int_sum_correct`, `and_or_correct`, `max_min_correct`, `var_op_correct`, `linreg_op_correct`, `client_recv_correct`, `crash_in_record_refuted`.  First part (whole records) by the arrives hypothesis of the operation theorems; the second part is false for BITSUM and others: a client that goes away within a record makes an entry with a stale value (crash_in_record_refuted). For VAR and LINREG records cut short are dropped (arrives_cut).

### C42 Iteration order is irrelevant (partial)

Iteration order is an argument; theorems for all fair orders; counterexample for VAR with cheaters.

Theorems: `bit_sum_deterministic`, `int_sum_deterministic`, `and_or_correct`, `max_min_correct`, `var_run`, `linreg_run`, `freq_checked_one_by_one`, `freq_batch_passed`, `var_order_irrelevant_refuted`.  Schedules: all operations. Iteration orders: all operations but VAR and LINREG for arbitrary clients; VAR and LINREG for honest clients. With cheating clients the order can change the answer of VAR (var_order_irrelevant_refuted), so the claim is false there.

### C43 Opened values reveal nothing (proved)

Bijection between draws and opened values.

Theorems: `and_opening_reveals_nothing`, `b2a_opening_reveals_nothing`, `snip_opening_reveals_nothing`.

### C44 Modulus and generator are suitable (proved)

Pocklington certificate checked by `vm_compute`, orders of powers; tables by induction.

Theorems: `modulus_is_prime`, `generator_order`, `root_tables_correct`, `root_tables_size_refuted`.  For N = 2^k up to 2^18; at 2^19 the 2N-th roots collapse (root_tables_size_refuted).

### C45 Least squares solution (proved)

Exact rational linear algebra: normal equations, uniqueness, minimality of the squared error over all coefficient vectors.

Theorems: `regression_minimises`, `regression_singular_iff`, `regression_needs_data`, `linreg_line`, `inverse_or_singular`, `inverse_determined`.  Over exact rationals, as FLINT computes; the final conversion to double (fmpq_get_d) is not modelled.

### C46 What identities reveal (proved)

Byte-level: the identity prints the generator's next block, from which the next private value is computed.

Theorems: `bit_identity_reveals_next`, `and_or_identity_reveals_next`, `int_identity_reveals_next`, `max_identity_reveals_next`, `var_identity_reveals_next`, `linreg_identity_reveals_next`, `freq_identity_reveals_next`.

### C48 Answers depend only on what the clients of the operation sent (partial)

Refuted with a run whose answer is the stale stack contents; the `*_alone` theorems hold for every stack contents.

Theorems: `empty_request_refuted`, `bit_sum_alone`, `int_sum_alone`, `and_or_alone`, `max_min_alone`, `var_alone`, `linreg_alone`.  False of the code for requests that announce more records than they contain (empty_request_refuted: the missing record is taken from the stack, where the previous client's is). True of requests with as many whole records as announced: in the *_alone theorems the local memory is arbitrary and does not occur in the answer.

### C47 Oblivious transfers hide the sender's shares (proved)

Bijection between masks and messages at the positions that count, for all choice bits.

Theorems: `intsum_reveals_nothing`, `intsum_explained_by_any_shares`, `bitsum_reveals_nothing`, `triple_transfer_reveals_nothing`.  Masks as an arbitrary tape (emp::PRG seeded by the system); the transfer itself is the ideal functionality.

### C49 Accuracy of the printed variance and deviation (proved)

Flocq: relative error of each rounding; exactness of the conversions below 2^53.

Theorems: `var_accurate`, `stddev_accurate`, `var_run_double`, `stddev_number_refuted`.  Doubles are Flocq's binary64 with rounding to nearest even. stddev_number_refuted shows the bound on the sum of squares is needed. Uses the axioms of the standard library's real numbers.

### C50 One server's record tells nothing about the private value (proved)

For each request function: given any share and value, blocks of the generator that give them (spliced before an arbitrary rest).  Packet: triangular system in the masks, unique solution.

Theorems: `bit_record_secret`, `int_record_secret`, `and_or_record_secret`, `max_min_record_secret`, `freq_record_secret`, `packet_reveals_nothing`, `var_record_secret`, `linreg_record_secret`, `first_bit_hidden`, `first_int_hidden`, `first_and_or_hidden`, `first_max_min_hidden`, `first_freq_hidden`.  The generators are idealised as arbitrary tapes, so the statements are about possible draws, not probabilities; packet_reveals_nothing also has uniqueness. The private value itself is drawn from the same generator, as in the client. Later clients of a run are exposed by C46.

### C51 A server following its program learns only the aggregate (proved)

`logged` records what a process receives; runs of the logged process give the view as an explicit function (`PrivacyFacts`); hiding by C47; honest clients by C50.

Theorems: `bit_sum_view0`, `int_sum_view0`, `bit_sum_view1`, `int_sum_view1`, `and_or_view0`, `and_or_view1`, `max_min_view0`, `max_min_view1`, `refused_sum_known`, `bit_sum_private0`, `int_sum_private0`, `and_or_private0`, `max_min_private0`, `bit_sum_private1`, `int_sum_private1`, `and_or_private1`, `max_min_private1`, `bit_sum_exact0`, `int_sum_exact0`, `bit_sum_exact1`, `int_sum_exact1`.  Honest-but-curious servers, ideal oblivious transfer, iteration order of a hash table a function of its keys. For BIT_SUM and INT_SUM the *_exact theorems give measure preserving maps between the draws (equal distributions); for AND, OR, MAX and MIN C59 does. VAR and LINREG: C53. FREQ: C54.

### C52 Sessions of the client program with the two servers (proved)

`ClientMain` models the client's main, byte streams included; each run satisfies the hypotheses of the operation's theorem, and the main loop's theorem (C35) is folded over the runs.

Theorems: `whole_session`, `whole_session_freq`, `client_sends`, `no_bits_refuted`.  A FREQ can only be the last run: it leaves bytes in the channel (C38). no_bits_refuted: INT_SUM and others without a number of bits compute a remainder by zero. The bounds of the single operations (24 bits in VAR/LINREG, number of gates, request counts below 2^32) are hypotheses of visit_ok.

### C53 In VAR, STDDEV and LINREG a server following its program learns only the sums (proved)

The logged views of `snip_sums0`/`snip_sums1` computed for honest clients (`StatView`); a packet can be chosen with any opened D, E (`SecretProof.opens`), so the other clients give the same messages (`StatPrivacy`); wrapped into the operations in `StatOps`.

Theorems: `var_private0`, `var_private1`, `linreg_private0`, `linreg_private1`.  Honest-but-curious servers and honest clients, ideal oblivious transfer, iteration order of a hash table a function of its keys; the draws of the proofs are an arbitrary tape per client (FLINT's generator starts from a fixed seed in the program: see the findings). Possible draws, not probabilities.

### C54 In FREQ a server following its program learns only the counts (partial)

Logged views of the whole FREQ run (`FreqView`), with the daBits as explicit functions of the tapes.  Leak: a decoder applied to the log gives the rows (`FreqPrivacy`).  Hiding: the other clients' rows go with other bits on the other server's tape (`FreqHide`).

Theorems: `freq_private0`, `freq_private1`, `freq_private1_lazy`, `freq_rows_visible0`, `freq_dealer_knows`, `freq_private0_lazy_refuted`, `local_dabit_half`.  Proved for both servers with daBits by oblivious transfer (LAZY_PRECOMPUTE false). With the shipped LAZY_PRECOMPUTE true it is false for server 0 (freq_rows_visible0, freq_dealer_knows, freq_private0_lazy_refuted) and proved for server 1 when no dealt half is 1 (freq_private1_lazy; local_dabit_half shows the proviso is needed). Empty daBit stores, as at a server's first FREQ. Honest-but-curious servers, ideal oblivious transfer, iteration order a function of the keys; possible draws, not probabilities.

### C55 Arithmetic triples from homomorphic encryption (partial)

`HeTriples`: the class with PALISADE as a record of functions under a contract (`he_ok`, met by a scheme in clear); each result computed as a function of the draws, by induction on batches and calls.

Theorems: `he_triples_correct`, `he_parts_known`.  First part proved. The second part is false of the code: the engine is never seeded, so both servers read the same fixed sequence (he_parts_known). PALISADE by contract; do_fork true; serialised objects of one kind have one length.

### C56 A debugging run with spoiled requests gives the answer of the unspoiled ones (proved)

`DebugOps`: the debugging functions, the released buffers as arbitrary bytes.  The accepted identities are shown to be those not marked (`DebugFacts`), then the servers' theorems apply.

Theorems: `bit_sum_debug_run`, `int_sum_debug_run`, `and_or_debug_run`, `max_min_debug_run`, `debug_released_refuted`.  Proved for the four operations under the stated condition on the released buffers (SpecDebug.released_ok), shown to be needed by debug_released_refuted (the code does not establish it: undefined behaviour); too_big: INTSUM's two unreduced draws exceed the bound. VAR and LINREG: C66.

### C57 No bytes sent by clients stop the servers (proved)

Receiving loops keep an invariant for any stream (`AvailFacts.receive_any`) or any stream is shown to be the encoding of some records and a rest (`decode_stream`); then the results on tables and on arbitrary records apply.

Theorems: `int_sum_any_bytes`, `and_or_any_bytes`, `bit_sum_any_bytes`, `bit_sum_any_bytes_refuted`, `max_min_any_bytes`, `var_any_bytes`, `linreg_any_bytes`.  Every byte stream is decoded into records, so nothing is assumed about what arrives beyond being bytes (LINREG: after the number of variables). FREQ is not covered: there the servers can block (C37). The exceptions in the statement are proved to be undefined behaviour (bit_sum_any_bytes_refuted, max_min_undefined, the second alternatives of var_any_bytes and linreg_any_bytes).

### C58 Honest submissions count, whatever the other clients send (proved)

The accepted identities are a permutation of the honest ones and a rest (`RobustFacts.split_accepted`), honest proofs pass whatever else is in the batch (`judged_honest`), and the rest is bounded by the bound checks on the shares.

Theorems: `bit_sum_robust`, `int_sum_robust`, `var_stddev_robust`, `linreg_op_robust`, `freq_robust_checked`, `freq_robust_unchecked`.  Bound of the others' influence and completeness of the honest part for the five summing operations. AND, OR, MAX and MIN are left out: there one other client legitimately decides the answer. The hypothesis about identities is needed: the first acceptable submission under an identity is the one that counts (C34), so whoever learns an identity early can take its place. Sums modulo p (VAR, LINREG) or 2^64 (INT_SUM).

### C59 In AND, OR, MAX and MIN one server's view has the same distribution for all private values with the same result (proved)

`alike`: a permutation of the draws keeps server 0's records and the xor of the contributions.  It is an equivalence; one client's first block is changed at a time, moving its contribution into a client at the extreme level (word by word for MAX, with the words located inside the 16-byte blocks), until all clients are the same.  Server 1: client by client.  Counting: a permutation of a finite list.

Theorems: `and_or_exact0`, `and_or_exact1`, `max_min_exact0`, `max_min_exact1`, `all_draws_listed`, `and_or_counts0`, `and_or_counts1`, `max_min_counts0`, `max_min_counts1`, `result_is_seen`.  The first block of a client is fixed because value mod (B+1) is not uniform. MAX and MIN: server views where the xored row is not all zero (as in C51). result_is_seen shows that the equal result is needed.

### C60 No answer from one server when the other stops in the middle of a run (partial)

`Alone.v`: the remaining server's possible results when receives meet the end of the stream and keep the old contents of their destination.  The refutations run both servers to the point before the last message (`runs`, as in C27-C30) and choose those contents; the positive part is an inversion of `alone` along the program (`alone_bind`), since a transfer of at least one message never completes.

Theorems: `bit_sum_no_answer_partial`, `int_sum_no_answer_partial`, `bit_sum_alone_refuted`, `int_sum_alone_refuted`, `and_or_alone_refuted`, `max_min_alone_refuted`.  Proved for a stop before the oblivious transfers. The rest is false of the code: after them (and in AND, OR, MAX, MIN after the identities) a run exists where server 0, left alone, reports any given value. VAR and LINREG are in C71, FREQ in C72.

### C61 In VAR, STDDEV and LINREG one server's view has the same distribution for all private values with the same sums (proved)

Generator part: exclusive or with a mask fixed by the two values (`StatDraws`).  Proof part: the draws are determined uniquely by the polynomials' secret values, the packet a server holds and the D, E it is sent (`StatPair`), so the map is a bijection; it is obtained from the relation by choice over finite lists (`StatExact`), no axiom.  For server 1 the masks are determined by the messages of the transfers (`StatPairs`).  Whole operations in `StatExactOps`, with the views of C53.

Theorems: `var_exact0`, `var_exact1`, `linreg_exact0`, `linreg_exact1`.  Honest-but-curious servers and honest clients, ideal oblivious transfer, iteration order of a hash table a function of its keys; identities drawn without collision. The draws of the proofs are taken as uniform numbers below p, each client with its own; the program's FLINT generator starts from a fixed seed (findings). Server 0's masks are taken as uniform below p; the code reduces 64-bit words (distance not modelled).

### C62 Built without the oblivious-transfer conversion, VAR, STDDEV and LINREG give the same answers up to 15 bits (partial)

`DabitOps` is the other branch of `share_convert`.  What follows the conversion (`snip_tail_rel`) and the conclusion for each identity (`op_post`) are shared with C31, C32; the conversion is C18's theorem on the flat array, cut back into rows (`DabitFacts`).  The counterexample is executed by the kernel (`Exec`).

Theorems: `var_op_dabit_correct`, `linreg_op_dabit_correct`, `var_run_dabit`, `linreg_run_dabit`, `var_dabit_16_rejected`, `var_run_dabit_16_refuted`, `linreg_dabit_16_rejected`, `linreg_run_dabit_16_refuted`, `var_dabit_17_undefined`, `linreg_dabit_17_undefined`.  Proved for widths up to 15; for 16 the claim is refuted and from 17 on both servers reach undefined behaviour (proved). At 16 bits the refutations are single honest clients, for LINREG with one dependent value. Not the default build.

### C63 A build that does not fork gives the same results with large socket buffers and deadlocks below an exact size (proved)

`nofork` rewrites every `Xchg` of a server program into a send followed by a receive, which is what the C++ does when `do_fork` is false.  Large buffers: the forking and the other run simulate each other (`NoForkFacts.sim`), and the bytes of a run that ends are bounded.  Exact sizes: a run is cut at its exchanges; one that does not fit leads every schedule into the state where both send into full buffers (`xchg_deadlock`).

Theorems: `nofork_large_buffers`, `nofork_large_buffers_always`, `nofork_exchange`, `fork_exchange`, `nofork_multiply`, `nofork_b2a`, `nofork_swap`, `nofork_var`, `nofork_linreg`, `nofork_freq_deadlock`.  For FREQ the deadlock below one message is proved and, by the general theorem, the absence of it with large buffers; the exact size is not stated.

### C64 The number of challenges that let a cheating client of VAR, STDDEV or LINREG through is bounded, for whole operations (proved)

The field tuples are enumerated (`CountFacts.tuples`).  Except at the at most 2N zeros of a non-zero polynomial, two accepted coefficient lists never differ in one place only (the soundness lemma `sound_verdict`), so dropping that place is injective on the accepted challenges.  A whole operation: the verdict depends only on the coefficients of the identity's window (`verdict_window`), whose place the strengthened `*_op_result` lemmas give; union over the untruthful identities.  Whether a challenge lets a submission through is decidable, so the exceptions can be listed without classical axioms.

Theorems: `challenges_number`, `cheat_count`, `zero_coefficients_pass`, `var_sound_count`, `linreg_sound_count`.  Counts challenges; that FLINT's default seed makes the actual draws predictable is a recorded finding.

### C65 A VAR, STDDEV or LINREG submission is accepted with every challenge exactly when its values and its proof are right; every other one with a negligible part of the challenges (proved)

All the check looks at is a polynomial (gap between the product of the two interpolated polynomials and the client's, with the error of the triple as constant coefficient) and the wires that must be zero.  If some coefficient or wire is not zero, the counting of C64 applies (`shaky_count`); if all are zero the submission passes always.  That all are zero is equivalent to the opened packet being one made by the client's code: uniqueness of interpolation in both directions (`right_opened`, `opened_right`), with a tape built from the opened f0, g0, A, B.

Theorems: `always_accepted`, `all_or_few_challenges`, `right_packets_unique`, `spoiled_count`, `var_exact_answer`, `linreg_exact_answer`, `well_proved_listed`.  Strengthens C64: the counted set is not merely truthful but known exactly.

### C66 A debugging run of VAR, STDDEV or LINREG yields the answer the client prints, for the requests it did not spoil (proved)

Each request is shown to be, by its index, acceptable and well proved, not acceptable, or acceptable and not well proved (`row`; the spoiled packets by C65's `spoiled_wrong`, the wrong products because ten more is never the same modulo 2^(2 bits) and p).  The identities are handled as in C56.  So the well-proved among the acceptable identities are exactly those of the requests not marked, and C65's count applies.

Theorems: `var_debug_run`, `linreg_debug_run`.  Under the stated conditions on the client's draws (SpecDebugStat.changes, var_too_big, linreg_too_big) and on the released buffers (SpecDebug.released_ok); that the latter is needed is shown in C56 (debug_released_refuted).

### C67 A server's behaviour stays defined whatever program runs at the other server, except in exactly the cases found (proved)

`against p i w` gives the fate of a server from the bytes and transfers that reach it; `safe_against` and `breakable_against` show that quantifying over these is the same as quantifying over all programs at the other end, schedules and buffer sizes.  Then each operation by its structure.

Theorems: `peer_breaks`, `peer_safe`, `bit_sum_peer`, `int_sum_peer`, `and_or_peer`, `max_min_peer1`, `max_min_peer0`, `max_min_peer0_refuted`, `var_peer_server0`, `var_peer_server0_refuted`, `var_peer_server1`, `linreg_peer_server0`, `linreg_peer_server0_refuted`, `linreg_peer_server1`, `freq_peer_server0`, `freq_peer_server1`, `freq_peer_refuted`.  The cases in which a server breaks are characterised exactly (iff) for server 0; each is shown to occur (_refuted). Server 1 of VAR and LINREG without any acceptable record dereferences an empty batch by itself (C60). FREQ with LAZY_PRECOMPUTE, widths up to 30.

### C68 An answer is about at least half of the announced clients, even if server 1 departs from the code in whom it announces (partial)

Server 1 is run with the order `replay pks`, whose loops visit the identities `pks`; the proofs of C04-C08 do not need the order to be a permutation until the last step, which is redone for any list.  The lower bound on the count is read off `against`.

Theorems: `bit_sum_half_partial`, `int_sum_half_partial`, `and_or_half_partial`, `max_min_half_partial`, `bit_sum_chosen`, `int_sum_chosen`, `and_or_chosen`, `max_min_chosen`, `bit_sum_singled_refuted`, `int_sum_singled_refuted`, `and_or_singled_refuted`, `max_min_singled_refuted`.  The remaining part, that the clients counted are different, is false of the code (the _refuted theorems): server 0 does not check for repeated identities.

### C69 What a server can learn of the other server's shares by running a program of its own (proved)

`same_to` compares the reachable states of an arbitrary program against two servers.  `course` gives the bytes a program sends and the values it puts into its first transfer; `staged` (a simulation, by induction over steps of any schedule) reduces `same_to` for programs of the form send; receive; rest to a comparison of the rests for the bytes and the transfer the program actually makes.  The findings are ordinary runs of explicit programs (`spy_bits`, `spy_ints`, `spy_xor`, `spy_max`).

Theorems: `bit_sum_rogue1`, `int_sum_rogue1`, `and_or_rogue1`, `max_min_rogue1`, `bit_sum_rogue0`, `int_sum_rogue0`, `and_or_rogue0`, `max_min_rogue0`, `bit_sum_rogue0_refuted`, `int_sum_rogue0_refuted`, `and_or_rogue0_refuted`, `max_min_rogue0_refuted`.  The _refuted theorems are the findings: what server 0 may learn includes the shares of single clients. Oblivious transfer is ideal here; undefined behaviour of server 0 of MAX/MIN (C67) is taken to be a stop. VAR, STDDEV and LINREG: C70. FREQ is not covered.

### C70 What a server can learn in VAR, STDDEV and LINREG by running a program of its own (proved)

Explicit programs `spy_var`, `spy_linreg`, `bend_var` (SpecRogueStat.v) are run against the code.  Server 0 reads the numbers of the last exchange before it sends its own (`force`), so that all sums opened are zero (`validate_forced`), and names the clients it wants as valid.  For server 1, `bent_verdict`: with an honest proof, moving the claimed square by d makes the check fail exactly if d is not zero modulo p; turning bit j of a share before the conversion and taking away 2^j after it moves the square by 0 or 2^(j+1) (`row_bent`).

Theorems: `var_rogue0_refuted`, `linreg_rogue0_refuted`, `var_rogue0_one_refuted`, `linreg_rogue0_one_refuted`, `var_rogue1_refuted`.  All are findings: explicit programs a server may run and what they return. Which further programs exist, and the most a server can learn, is not stated.

### C71 No answer of VAR, STDDEV or LINREG from one server when the other stops in the middle of a run (partial)

`SpecForsaken.v`: as `Alone.v`, with exchanges, and with the contents of the destination of each receive at the end of the stream written out (`old`).  The positive part holds for all `old` (`sums_forsaken`: at least one transfer never completes, and an empty batch is undefined).  The refutations run both servers to the point before server 1's last message (`var_stop`, `linreg_stop`) and go on with exactly the contents the variables have in the code: 0 in VAR, the sum before in LINREG (`b_before`, `b_after`).  For a stop inside the last message of LINREG server 1's `Send` is cut byte by byte (`each_cut`).

Theorems: `var_no_answer_partial`, `linreg_no_answer_partial`, `var_alone_refuted`, `linreg_alone_refuted`.  The full statement is false (the two _refuted theorems). Missing: what server 0 does when server 1 stops between the transfers and the end of the check, or in the middle of a number; and what server 1 does when server 0 stops.

### C72 No answer of FREQ from one server when the other stops in the middle of a run (partial)

`forsaken` of `SpecForsaken.v`, with `blank` destinations for the arrays that `new_fmpz_array` has just zeroed.  Refutation: both servers run to the point before server 1's last message (`freq_left`, for both outcomes of the check of the batch).  Positive part: both run to the end of the conversion (`freq_before`), then inversion of `forsaken` over all contents of the uninitialised parity and flags (`head_left`).

Theorems: `freq_no_answer_partial`, `freq_alone_refuted`.  The full statement is false (freq_alone_refuted). Missing: a stop inside the conversion of the shares, between the two parts of the check or inside the last message, and what server 1 does when server 0 stops.

## 6. Findings

Defects or surprising behaviour found while modelling; "proved" means a theorem exhibits it.

Sockets and messages
* `recv_in`: an error in the middle of a message is added to the count; a later success hides it (proved, C03).
* an empty string is sent but not received (proved, C05); sizes >= 2^32 are truncated (proved, C05).
* `send` results are not checked for short writes; the check in `send_out` compares a `size_t` with -1.

Sharing, OT, conversion
* `bitsum_ot` with a non-zero modulus is wrong (proved, C13); no caller uses one.
* `intsum_ot` is wrong from 49 bits modulo p (proved, C14), so VAR and LINREG from 25 bits on.
* `b2a_daBit_multi` is wrong at 32 bits (proved, C18), undefined above.
* `NextPowerOfTwo` is wrong at 2^32-1 and does not end from 2^31 on (proved, C12).
* Masks come from `emp::PRG` seeded by the system, but FLINT's generator has a fixed seed.

Polynomials, proofs of validity
* `init_roots` with N >= 2^19: roots collapse (proved, C44).
* with a known challenge point a proof can be forged (proved, C25); the point comes from FLINT's
  deterministic seed.
* The triple used in the check is the client's own; with the fixed seed above the masks of D and E
  (C43) are those of a public sequence.
* `validate_snips` with no records at server 1 is undefined (proved, C31).
* A client sending a byte other than 0 and 1 as the value of BIT_SUM makes the servers read a `bool` that is
  neither true nor false: undefined behaviour (proved, C57).
* VAR accepts v2 = v^2 + p from 24 bits on (proved, C31).
* Root tables are global and not recomputed for another N.

Operations
* FREQ's batch check is unsound (proved, C33); each FREQ whose check passes leaves bytes in the
  channel (proved, C38), after which the next FREQ is wrong; with small buffers it blocks
  (proved, C37); server 0 overruns `pk_list` when server 1 knows more identities (proved, C37).
* With the shipped `LAZY_PRECOMPUTE true` server 0 deals the daBits, so in FREQ the masked bits server 1
  sends show server 0 every client's row (proved, C54).  Server 1 learns a bit when its half of a dealt
  daBit is 1, one value in p - 1: `makeLocalDaBit` excludes 1 as server 0's half for the bit 1 only
  (proved, C54).
* MAX/MIN: undefined when all rows cancel (proved, C30); `total*(B+1)` overflows 32 bits.
* AND/OR: encodings can cancel with probability 2^-64 (exact event in C29).
* VAR: iteration order matters when there are cheaters (proved, C42); duplicates count toward the
  threshold's denominator but not as valid.
* A client going away in a record makes an accepted entry with a stale value (proved, C41); a
  request without records is answered from stale memory (proved, C48).
* A client that sends different parameters to the two servers, or two concurrent clients reaching
  them in different orders, make the servers disagree or block.
* Sums >= p wrap silently; STDDEV can then be NaN (proved, C49).
* A singular system in `SolveLinReg` only prints a warning and uses an unspecified inverse (C45).
* Server 0 learns the sum also of an operation it refuses (proved, C51).
* With `do_fork` false ("to do debugging", correlated.h:65) the servers deadlock as soon as an exchange is longer
  than the socket buffers: 16 bytes per identity in VAR and LINREG, one bit per counter and identity in FREQ
  (proved, C63).
* Built with USE_OT_B2A false: VAR, STDDEV and LINREG turn away honest values whose square has bit 31 set
  (16 bits) and shift an `int` by 32 or more from 17 bits on (proved, C62).
* Server 0 aggregates the identities server 1 announces without looking for repetitions: server 1 can have one
  client's value printed by announcing it often enough (proved, C68).
* A dishonest server can make the other's behaviour undefined: in MAX and MIN by announcing one identity an even
  number of times and echoing the xor (the search for the highest nonzero counter runs below 0), in VAR, STDDEV and
  LINREG by announcing nobody (`circuit[0]` of an empty batch) or a known client twice (server.cpp:849, 1102-1104
  and 1118 then free the same memory twice), in FREQ by announcing more identities than `pk_list` holds, or by a
  parity byte other than 0 and 1 (proved, C67).
* server.cpp:1021-1023 and 1102-1104 release with `delete` what was allocated with `new[]`.  Formally every LINREG
  run is undefined for this reason; the common allocators free it all the same, and so does the model.
* Server 1 sends server 0 an unmasked sum over messages and validity bits that server 0 has chosen: a server 0
  that offers powers of two in the oblivious transfers, or calls all submissions but one invalid, reads off the
  shares of single clients and thereby their private values (proved, C69).  Server 1 cannot do the like.
* In VAR, STDDEV and LINREG, server 0 may answer the last exchange of the check after reading server 1's numbers, and
  alone decides which submissions are valid: it obtains the sums over any clients it likes, also over one (proved, C70).
* In VAR and STDDEV, server 1 may make the check of honest clients depend on a bit of the square of their values by
  changing its shares before and after the conversion, and server 0 tells it the outcome (proved, C70).
* If server 1 stops before its last message of VAR or STDDEV, server 0 reports its own random shares as the sums; in
  LINREG it solves the equations for running sums of its shares, because `b` (server.cpp:1143) is not reset between
  receives (proved, C71).
* If server 1 stops before its last message of FREQ, server 0 reports its own random shares as the counts (proved, C72).
* No receive from the other server checks what `recv_in` returned.  If server 1 dies between its
  oblivious transfers (or the identities, in AND, OR, MAX, MIN) and its last message, server 0 answers
  from an uninitialised `b`: any value (proved, C60).

* he_triples.cpp (unused): `random_int` copies a default constructed engine, so both servers draw from the
  same fixed sequence, 8 places apart; each knows the other's parts of all triples (proved, C55).

Client
* `make_pk` copies the generator: an identity reveals the next client's private value in a batch
  (proved, C46).
* num_bits = 32 or more: `max_val * max_val` wraps to 0; `1ULL << num_bits` before the check;
  `1 << num_bits` as `int` in FREQ.
* main: `argc < 4` is checked but argv[4] is read (a null string with three arguments); without num_bits `max_int` is 0
  and INT_SUM, VAR, STDDEV, LINREG, FREQ compute a remainder by zero (proved, C52).
* main prints num_bits where linreg_degree is meant; `prev_pk` dangles in the `*_invalid`
  functions (what it matters: C56); padded arrays are cleared with N in place of 2N; `flint_randclear(seed)` in `~Checker`.

## 7. Testing the theorems

`seeded/LOG.jsonl` records edits of the model that imitate realistic bugs, the theorems that then
fail, and the theorems that were tightened when none did.  Where a line has `failing_lemmas`, these are the
lemmas at which Coq reported the error.  `theorems_failed` then lists the property theorems whose
proofs lead back to one of them.  It is computed by following lemma names through the text of the
proofs, so it can name a theorem too many where two files use one name for different lemmas.
