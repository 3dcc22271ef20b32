{
 "claims": [
  {
   "property": "C01",
   "status": "proved",
   "theorems": [
    "recv_reassembles",
    "recv_all_or_eof"
   ],
   "note": ""
  },
  {
   "property": "C02",
   "status": "proved",
   "theorems": [
    "recv_eof_reported"
   ],
   "note": ""
  },
  {
   "property": "C03",
   "status": "partial",
   "theorems": [
    "recv_error_reported_refuted",
    "recv_error_first_reported_partial",
    "recv_error_persistent_reported_partial"
   ],
   "note": "False of the code: an error in the middle of a message followed by a successful call makes the receive return success with a shifted buffer (recv_error_reported_refuted). Proved: an error on the first call, or one that persists, is reported."
  },
  {
   "property": "C04",
   "status": "proved",
   "theorems": [
    "bool_batch_roundtrip",
    "bool_roundtrip"
   ],
   "note": ""
  },
  {
   "property": "C05",
   "status": "proved",
   "theorems": [
    "int_roundtrip",
    "uint32_roundtrip",
    "uint64_roundtrip",
    "ulong_roundtrip",
    "uint64_batch_roundtrip",
    "ulong_batch_roundtrip",
    "size_roundtrip",
    "size_roundtrip_iff",
    "string_roundtrip",
    "string_roundtrip_empty_refuted"
   ],
   "note": "Non-empty strings; the empty string is not received (string_roundtrip_empty_refuted)."
  },
  {
   "property": "C06",
   "status": "proved",
   "theorems": [
    "fmpz_roundtrip",
    "fmpz_batch_roundtrip"
   ],
   "note": ""
  },
  {
   "property": "C07",
   "status": "proved",
   "theorems": [
    "Cor_roundtrip",
    "CorShare_roundtrip",
    "CorShare_batch_roundtrip",
    "BeaverTriple_roundtrip",
    "BeaverTripleShare_roundtrip",
    "BoolTriple_roundtrip",
    "DaBit_roundtrip",
    "DaBit_batch_roundtrip",
    "EdaBit_roundtrip",
    "EdaBit_batch_roundtrip",
    "ClientPacket_roundtrip"
   ],
   "note": ""
  },
  {
   "property": "C08",
   "status": "proved",
   "theorems": [
    "split_share_reconstructs"
   ],
   "note": ""
  },
  {
   "property": "C09",
   "status": "proved",
   "theorems": [
    "split_share_first_uniform",
    "split_share_second_uniform"
   ],
   "note": ""
  },
  {
   "property": "C10",
   "status": "proved",
   "theorems": [
    "new_triple_correct",
    "triple_shares_correct",
    "lazy_triple_correct"
   ],
   "note": ""
  },
  {
   "property": "C11",
   "status": "proved",
   "theorems": [
    "local_dabit_correct",
    "joint_dabit_correct",
    "local_edabit_correct",
    "bool_array_value",
    "edabit_int_value"
   ],
   "note": ""
  },
  {
   "property": "C12",
   "status": "proved",
   "theorems": [
    "next_power_of_two_least",
    "next_power_of_two_bound_sharp"
   ],
   "note": ""
  },
  {
   "property": "C13",
   "status": "proved",
   "theorems": [
    "bitsum_correct",
    "bitsum_any_modulus_refuted"
   ],
   "note": "For modulus argument 0 (2^64), the only one used; with a non-zero modulus the function is wrong (bitsum_any_modulus_refuted)."
  },
  {
   "property": "C14",
   "status": "proved",
   "theorems": [
    "intsum_correct",
    "b2a_ot_correct",
    "width_ok_field",
    "intsum_all_widths_refuted"
   ],
   "note": "Wrong from 49 bits on with modulus p (intsum_all_widths_refuted)."
  },
  {
   "property": "C15",
   "status": "proved",
   "theorems": [
    "bool_triples_correct"
   ],
   "note": ""
  },
  {
   "property": "C16",
   "status": "proved",
   "theorems": [
    "shared_and_correct"
   ],
   "note": ""
  },
  {
   "property": "C17",
   "status": "proved",
   "theorems": [
    "shared_addition_correct"
   ],
   "note": ""
  },
  {
   "property": "C18",
   "status": "proved",
   "theorems": [
    "b2a_single_correct",
    "b2a_multi_correct",
    "b2a_multi_width32_refuted"
   ],
   "note": "Wrong at 32 bits (b2a_multi_width32_refuted)."
  },
  {
   "property": "C19",
   "status": "proved",
   "theorems": [
    "store_history_correct"
   ],
   "note": ""
  },
  {
   "property": "C20",
   "status": "proved",
   "theorems": [
    "eval_exists",
    "eval_correct",
    "check_var_decides",
    "check_linreg_decides",
    "check_circuits_wf"
   ],
   "note": ""
  },
  {
   "property": "C21",
   "status": "proved",
   "theorems": [
    "import_wires_shares",
    "get_mul_shares_shares"
   ],
   "note": ""
  },
  {
   "property": "C22",
   "status": "proved",
   "theorems": [
    "fft_evaluates",
    "fft_evaluates2",
    "fft_interpolates"
   ],
   "note": ""
  },
  {
   "property": "C23",
   "status": "proved",
   "theorems": [
    "eval_from_points",
    "eval_from_repeated_points_refuted"
   ],
   "note": "For distinct points; with repeated points the result is wrong (eval_from_repeated_points_refuted), the code only uses distinct roots of unity."
  },
  {
   "property": "C24",
   "status": "proved",
   "theorems": [
    "honest_accepted"
   ],
   "note": "Circuits with fewer than 2^18 multiplications (limit of the root tables)."
  },
  {
   "property": "C25",
   "status": "proved",
   "theorems": [
    "dishonest_rejected",
    "verdict_total",
    "dishonest_rejected_every_point_refuted"
   ],
   "note": "For circuits with fewer than 2^18 multiplications. dishonest_rejected_every_point_refuted shows that the exceptional points exist: a client knowing the challenge point can forge a proof."
  },
  {
   "property": "C26",
   "status": "proved",
   "theorems": [
    "batch_validated"
   ],
   "note": ""
  },
  {
   "property": "C27",
   "status": "proved",
   "theorems": [
    "bit_sum_correct",
    "bit_sum_run"
   ],
   "note": ""
  },
  {
   "property": "C28",
   "status": "proved",
   "theorems": [
    "int_sum_correct",
    "int_sum_run"
   ],
   "note": ""
  },
  {
   "property": "C29",
   "status": "proved",
   "theorems": [
    "and_or_correct",
    "and_or_decided",
    "and_or_run",
    "and_or_answer"
   ],
   "note": ""
  },
  {
   "property": "C30",
   "status": "proved",
   "theorems": [
    "max_min_correct",
    "max_never_exceeds",
    "max_attained",
    "max_min_undefined",
    "max_min_run"
   ],
   "note": ""
  },
  {
   "property": "C31",
   "status": "proved",
   "theorems": [
    "var_op_correct",
    "var_run",
    "var_sums_exact",
    "judged_once",
    "var_cheater_rejected",
    "var_square_exact",
    "var_square_exact_24_refuted",
    "var_nothing_undefined"
   ],
   "note": "Widths up to 24 bits. Theorems are about the values num_valid, sum, sum of squares that enter the final floating point formula. An operation without any acceptable record at server 1 is undefined behaviour (var_nothing_undefined)."
  },
  {
   "property": "C32",
   "status": "proved",
   "theorems": [
    "linreg_op_correct",
    "linreg_run",
    "linreg_sums_exact",
    "linreg_cheater_rejected",
    "linreg_nothing_undefined"
   ],
   "note": "Widths up to 24 bits, num_quad + num_x < 2^18. Theorems are about the moment sums passed to SolveLinReg."
  },
  {
   "property": "C33",
   "status": "partial",
   "theorems": [
    "freq_run",
    "freq_batch_passed",
    "freq_checked_one_by_one",
    "freq_counts_add_up",
    "freq_repeats",
    "freq_only_one_hot_refuted"
   ],
   "note": "First part (honest clients: exact histogram) proved. Second part is false of the code: freq_only_one_hot_refuted exhibits a batch of submissions none of which is one-hot and which is counted; freq_checked_one_by_one proves it when the batch check fails, freq_counts_add_up bounds the sum of the counts."
  },
  {
   "property": "C34",
   "status": "proved",
   "theorems": [
    "bit_sum_repeats",
    "int_sum_repeats",
    "and_or_repeats",
    "max_min_repeats",
    "var_repeats",
    "linreg_repeats",
    "freq_repeats",
    "repeats_no_effect"
   ],
   "note": "All operations."
  },
  {
   "property": "C35",
   "status": "proved",
   "theorems": [
    "bit_sum_bounded_influence",
    "int_sum_bounded_influence"
   ],
   "note": ""
  },
  {
   "property": "C36",
   "status": "partial",
   "theorems": [
    "bit_sum_correct",
    "int_sum_correct",
    "and_or_correct",
    "max_min_correct",
    "var_op_correct",
    "linreg_op_correct",
    "freq_checked_one_by_one",
    "freq_batch_passed"
   ],
   "note": "Proved for BITSUM, INTSUM, AND, OR, MAX, MIN, VAR, STDDEV, LINREG, and for FREQ when the batch check fails. When the batch check of FREQ passes, the code counts every identity server 1 announced as valid, also those unknown to server 0 (freq_batch_passed states this threshold)."
  },
  {
   "property": "C37",
   "status": "partial",
   "theorems": [
    "bit_sum_correct",
    "int_sum_correct",
    "and_or_correct",
    "max_min_correct",
    "var_op_correct",
    "linreg_op_correct",
    "freq_checked_one_by_one",
    "freq_batch_passed",
    "freq_run",
    "freq_small_buffers_block",
    "freq_more_identities_undefined"
   ],
   "note": "Proved for every operation but FREQ. FREQ with a passing batch check leaves bytes in the channel: it ends if the buffers hold them, and otherwise server 1 blocks forever (freq_small_buffers_block), so the claim is false of the code for FREQ."
  },
  {
   "property": "C38",
   "status": "partial",
   "theorems": [
    "sequence_of_operations",
    "servers_from_start",
    "bit_sum_alone",
    "int_sum_alone",
    "and_or_alone",
    "max_min_alone",
    "var_alone",
    "linreg_alone",
    "freq_alone",
    "unknown_alone",
    "bit_sum_correct",
    "int_sum_correct",
    "and_or_correct",
    "max_min_correct",
    "var_op_correct",
    "linreg_op_correct",
    "freq_batch_passed",
    "freq_after_freq_refuted"
   ],
   "note": "Sequences of any length of every operation, and of FREQ with a failing batch check, answer as each operation alone. Missing: after a FREQ whose batch check passes bytes are left (freq_batch_passed) and the next FREQ announces wrong counts (freq_after_freq_refuted), so the claim is false of the code there."
  },
  {
   "property": "C39",
   "status": "proved",
   "theorems": [
    "challenge_point_consistent",
    "startup_point_agrees"
   ],
   "note": ""
  },
  {
   "property": "C40",
   "status": "proved",
   "theorems": [
    "identity_well_formed",
    "identity_injective",
    "identities_distinct"
   ],
   "note": ""
  },
  {
   "property": "C41",
   "status": "partial",
   "theorems": [
    "bit_sum_correct",
    "int_sum_correct",
    "and_or_correct",
    "max_min_correct",
    "var_op_correct",
    "linreg_op_correct",
    "client_recv_correct",
    "crash_in_record_refuted"
   ],
   "note": "First part (whole records) by the arrives hypothesis of the operation theorems; the second part is false for BITSUM and others: a client that goes away within a record makes an entry with a stale value (crash_in_record_refuted). For VAR and LINREG records cut short are dropped (arrives_cut)."
  },
  {
   "property": "C42",
   "status": "partial",
   "theorems": [
    "bit_sum_deterministic",
    "int_sum_deterministic",
    "and_or_correct",
    "max_min_correct",
    "var_run",
    "linreg_run",
    "freq_checked_one_by_one",
    "freq_batch_passed",
    "var_order_irrelevant_refuted"
   ],
   "note": "Schedules: all operations. Iteration orders: all operations but VAR and LINREG for arbitrary clients; VAR and LINREG for honest clients. With cheating clients the order can change the answer of VAR (var_order_irrelevant_refuted), so the claim is false there."
  },
  {
   "property": "C43",
   "status": "proved",
   "theorems": [
    "and_opening_reveals_nothing",
    "b2a_opening_reveals_nothing",
    "snip_opening_reveals_nothing"
   ],
   "note": ""
  },
  {
   "property": "C44",
   "status": "proved",
   "theorems": [
    "modulus_is_prime",
    "generator_order",
    "root_tables_correct",
    "root_tables_size_refuted"
   ],
   "note": "For N = 2^k up to 2^18; at 2^19 the 2N-th roots collapse (root_tables_size_refuted)."
  },
  {
   "property": "C45",
   "status": "proved",
   "theorems": [
    "regression_minimises",
    "regression_singular_iff",
    "regression_needs_data",
    "linreg_line",
    "inverse_or_singular",
    "inverse_determined"
   ],
   "note": "Over exact rationals, as FLINT computes; the final conversion to double (fmpq_get_d) is not modelled."
  },
  {
   "property": "C46",
   "status": "proved",
   "theorems": [
    "bit_identity_reveals_next",
    "and_or_identity_reveals_next",
    "int_identity_reveals_next",
    "max_identity_reveals_next",
    "var_identity_reveals_next",
    "linreg_identity_reveals_next",
    "freq_identity_reveals_next"
   ],
   "note": ""
  },
  {
   "property": "C47",
   "status": "proved",
   "theorems": [
    "intsum_reveals_nothing",
    "intsum_explained_by_any_shares",
    "bitsum_reveals_nothing",
    "triple_transfer_reveals_nothing"
   ],
   "note": "Masks as an arbitrary tape (emp::PRG seeded by the system); the transfer itself is the ideal functionality."
  },
  {
   "property": "C48",
   "status": "partial",
   "theorems": [
    "empty_request_refuted",
    "bit_sum_alone",
    "int_sum_alone",
    "and_or_alone",
    "max_min_alone",
    "var_alone",
    "linreg_alone"
   ],
   "note": "False of the code for requests that announce more records than they contain (empty_request_refuted: the missing record is taken from the stack, where the previous client's is). True of requests with as many whole records as announced: in the *_alone theorems the local memory is arbitrary and does not occur in the answer."
  },
  {
   "property": "C49",
   "status": "proved",
   "theorems": [
    "var_accurate",
    "stddev_accurate",
    "var_run_double",
    "stddev_number_refuted"
   ],
   "note": "Doubles are Flocq's binary64 with rounding to nearest even. stddev_number_refuted shows the bound on the sum of squares is needed. Uses the axioms of the standard library's real numbers."
  },
  {
   "property": "C50",
   "status": "proved",
   "theorems": [
    "bit_record_secret",
    "int_record_secret",
    "and_or_record_secret",
    "max_min_record_secret",
    "freq_record_secret",
    "packet_reveals_nothing",
    "var_record_secret",
    "linreg_record_secret",
    "first_bit_hidden",
    "first_int_hidden",
    "first_and_or_hidden",
    "first_max_min_hidden",
    "first_freq_hidden"
   ],
   "note": "The generators are idealised as arbitrary tapes, so the statements are about possible draws, not probabilities; packet_reveals_nothing also has uniqueness. The private value itself is drawn from the same generator, as in the client. Later clients of a run are exposed by C46."
  },
  {
   "property": "C51",
   "status": "proved",
   "theorems": [
    "bit_sum_view0",
    "int_sum_view0",
    "bit_sum_view1",
    "int_sum_view1",
    "and_or_view0",
    "and_or_view1",
    "max_min_view0",
    "max_min_view1",
    "refused_sum_known",
    "bit_sum_private0",
    "int_sum_private0",
    "and_or_private0",
    "max_min_private0",
    "bit_sum_private1",
    "int_sum_private1",
    "and_or_private1",
    "max_min_private1",
    "bit_sum_exact0",
    "int_sum_exact0",
    "bit_sum_exact1",
    "int_sum_exact1"
   ],
   "note": "Honest-but-curious servers, ideal oblivious transfer, iteration order of a hash table a function of its keys. For BIT_SUM and INT_SUM the *_exact theorems give measure preserving maps between the draws (equal distributions); for AND, OR, MAX and MIN C59 does. VAR and LINREG: C53. FREQ: C54."
  },
  {
   "property": "C52",
   "status": "proved",
   "theorems": [
    "whole_session",
    "whole_session_freq",
    "client_sends",
    "no_bits_refuted"
   ],
   "note": "A FREQ can only be the last run: it leaves bytes in the channel (C38). no_bits_refuted: INT_SUM and others without a number of bits compute a remainder by zero. The bounds of the single operations (24 bits in VAR/LINREG, number of gates, request counts below 2^32) are hypotheses of visit_ok."
  },
  {
   "property": "C53",
   "status": "proved",
   "theorems": [
    "var_private0",
    "var_private1",
    "linreg_private0",
    "linreg_private1"
   ],
   "note": "Honest-but-curious servers and honest clients, ideal oblivious transfer, iteration order of a hash table a function of its keys; the draws of the proofs are an arbitrary tape per client (FLINT's generator starts from a fixed seed in the program: see the findings). Possible draws, not probabilities."
  },
  {
   "property": "C54",
   "status": "partial",
   "theorems": [
    "freq_private0",
    "freq_private1",
    "freq_private1_lazy",
    "freq_rows_visible0",
    "freq_dealer_knows",
    "freq_private0_lazy_refuted",
    "local_dabit_half"
   ],
   "note": "Proved for both servers with daBits by oblivious transfer (LAZY_PRECOMPUTE false). With the shipped LAZY_PRECOMPUTE true it is false for server 0 (freq_rows_visible0, freq_dealer_knows, freq_private0_lazy_refuted) and proved for server 1 when no dealt half is 1 (freq_private1_lazy; local_dabit_half shows the proviso is needed). Empty daBit stores, as at a server's first FREQ. Honest-but-curious servers, ideal oblivious transfer, iteration order a function of the keys; possible draws, not probabilities."
  },
  {
   "property": "C55",
   "status": "partial",
   "theorems": [
    "he_triples_correct",
    "he_parts_known"
   ],
   "note": "First part proved. The second part is false of the code: the engine is never seeded, so both servers read the same fixed sequence (he_parts_known). PALISADE by contract; do_fork true; serialised objects of one kind have one length."
  },
  {
   "property": "C56",
   "status": "proved",
   "theorems": [
    "bit_sum_debug_run",
    "int_sum_debug_run",
    "and_or_debug_run",
    "max_min_debug_run",
    "debug_released_refuted"
   ],
   "note": "Proved for the four operations under the stated condition on the released buffers (SpecDebug.released_ok), shown to be needed by debug_released_refuted (the code does not establish it: undefined behaviour); too_big: INTSUM's two unreduced draws exceed the bound. VAR and LINREG: C66."
  },
  {
   "property": "C57",
   "status": "proved",
   "theorems": [
    "int_sum_any_bytes",
    "and_or_any_bytes",
    "bit_sum_any_bytes",
    "bit_sum_any_bytes_refuted",
    "max_min_any_bytes",
    "var_any_bytes",
    "linreg_any_bytes"
   ],
   "note": "Every byte stream is decoded into records, so nothing is assumed about what arrives beyond being bytes (LINREG: after the number of variables). FREQ is not covered: there the servers can block (C37). The exceptions in the statement are proved to be undefined behaviour (bit_sum_any_bytes_refuted, max_min_undefined, the second alternatives of var_any_bytes and linreg_any_bytes)."
  },
  {
   "property": "C58",
   "status": "proved",
   "theorems": [
    "bit_sum_robust",
    "int_sum_robust",
    "var_stddev_robust",
    "linreg_op_robust",
    "freq_robust_checked",
    "freq_robust_unchecked"
   ],
   "note": "Bound of the others' influence and completeness of the honest part for the five summing operations. AND, OR, MAX and MIN are left out: there one other client legitimately decides the answer. The hypothesis about identities is needed: the first acceptable submission under an identity is the one that counts (C34), so whoever learns an identity early can take its place. Sums modulo p (VAR, LINREG) or 2^64 (INT_SUM)."
  },
  {
   "property": "C59",
   "status": "proved",
   "theorems": [
    "and_or_exact0",
    "and_or_exact1",
    "max_min_exact0",
    "max_min_exact1",
    "all_draws_listed",
    "and_or_counts0",
    "and_or_counts1",
    "max_min_counts0",
    "max_min_counts1",
    "result_is_seen"
   ],
   "note": "The first block of a client is fixed because value mod (B+1) is not uniform. MAX and MIN: server views where the xored row is not all zero (as in C51). result_is_seen shows that the equal result is needed."
  },
  {
   "property": "C60",
   "status": "partial",
   "theorems": [
    "bit_sum_no_answer_partial",
    "int_sum_no_answer_partial",
    "bit_sum_alone_refuted",
    "int_sum_alone_refuted",
    "and_or_alone_refuted",
    "max_min_alone_refuted"
   ],
   "note": "Proved for a stop before the oblivious transfers. The rest is false of the code: after them (and in AND, OR, MAX, MIN after the identities) a run exists where server 0, left alone, reports any given value. VAR and LINREG are in C71, FREQ in C72."
  },
  {
   "property": "C61",
   "status": "proved",
   "theorems": [
    "var_exact0",
    "var_exact1",
    "linreg_exact0",
    "linreg_exact1"
   ],
   "note": "Honest-but-curious servers and honest clients, ideal oblivious transfer, iteration order of a hash table a function of its keys; identities drawn without collision. The draws of the proofs are taken as uniform numbers below p, each client with its own; the program's FLINT generator starts from a fixed seed (findings). Server 0's masks are taken as uniform below p; the code reduces 64-bit words (distance not modelled)."
  },
  {
   "property": "C62",
   "status": "partial",
   "theorems": [
    "var_op_dabit_correct",
    "linreg_op_dabit_correct",
    "var_run_dabit",
    "linreg_run_dabit",
    "var_dabit_16_rejected",
    "var_run_dabit_16_refuted",
    "linreg_dabit_16_rejected",
    "linreg_run_dabit_16_refuted",
    "var_dabit_17_undefined",
    "linreg_dabit_17_undefined"
   ],
   "note": "Proved for widths up to 15; for 16 the claim is refuted and from 17 on both servers reach undefined behaviour (proved). At 16 bits the refutations are single honest clients, for LINREG with one dependent value. Not the default build."
  },
  {
   "property": "C63",
   "status": "proved",
   "theorems": [
    "nofork_large_buffers",
    "nofork_large_buffers_always",
    "nofork_exchange",
    "fork_exchange",
    "nofork_multiply",
    "nofork_b2a",
    "nofork_swap",
    "nofork_var",
    "nofork_linreg",
    "nofork_freq_deadlock"
   ],
   "note": "For FREQ the deadlock below one message is proved and, by the general theorem, the absence of it with large buffers; the exact size is not stated."
  },
  {
   "property": "C64",
   "status": "proved",
   "theorems": [
    "challenges_number",
    "cheat_count",
    "zero_coefficients_pass",
    "var_sound_count",
    "linreg_sound_count"
   ],
   "note": "Counts challenges; that FLINT's default seed makes the actual draws predictable is a recorded finding."
  },
  {
   "property": "C65",
   "status": "proved",
   "theorems": [
    "always_accepted",
    "all_or_few_challenges",
    "right_packets_unique",
    "spoiled_count",
    "var_exact_answer",
    "linreg_exact_answer",
    "well_proved_listed"
   ],
   "note": "Strengthens C64: the counted set is not merely truthful but known exactly."
  },
  {
   "property": "C66",
   "status": "proved",
   "theorems": [
    "var_debug_run",
    "linreg_debug_run"
   ],
   "note": "Under the stated conditions on the client's draws (SpecDebugStat.changes, var_too_big, linreg_too_big) and on the released buffers (SpecDebug.released_ok); that the latter is needed is shown in C56 (debug_released_refuted)."
  },
  {
   "property": "C67",
   "status": "proved",
   "theorems": [
    "peer_breaks",
    "peer_safe",
    "bit_sum_peer",
    "int_sum_peer",
    "and_or_peer",
    "max_min_peer1",
    "max_min_peer0",
    "max_min_peer0_refuted",
    "var_peer_server0",
    "var_peer_server0_refuted",
    "var_peer_server1",
    "linreg_peer_server0",
    "linreg_peer_server0_refuted",
    "linreg_peer_server1",
    "freq_peer_server0",
    "freq_peer_server1",
    "freq_peer_refuted"
   ],
   "note": "The cases in which a server breaks are characterised exactly (iff) for server 0; each is shown to occur (_refuted). Server 1 of VAR and LINREG without any acceptable record dereferences an empty batch by itself (C60). FREQ with LAZY_PRECOMPUTE, widths up to 30."
  },
  {
   "property": "C68",
   "status": "partial",
   "theorems": [
    "bit_sum_half_partial",
    "int_sum_half_partial",
    "and_or_half_partial",
    "max_min_half_partial",
    "bit_sum_chosen",
    "int_sum_chosen",
    "and_or_chosen",
    "max_min_chosen",
    "bit_sum_singled_refuted",
    "int_sum_singled_refuted",
    "and_or_singled_refuted",
    "max_min_singled_refuted"
   ],
   "note": "The remaining part, that the clients counted are different, is false of the code (the _refuted theorems): server 0 does not check for repeated identities."
  },
  {
   "property": "C69",
   "status": "proved",
   "theorems": [
    "bit_sum_rogue1",
    "int_sum_rogue1",
    "and_or_rogue1",
    "max_min_rogue1",
    "bit_sum_rogue0",
    "int_sum_rogue0",
    "and_or_rogue0",
    "max_min_rogue0",
    "bit_sum_rogue0_refuted",
    "int_sum_rogue0_refuted",
    "and_or_rogue0_refuted",
    "max_min_rogue0_refuted"
   ],
   "note": "The _refuted theorems are the findings: what server 0 may learn includes the shares of single clients. Oblivious transfer is ideal here; undefined behaviour of server 0 of MAX/MIN (C67) is taken to be a stop. VAR, STDDEV and LINREG: C70. FREQ is not covered."
  },
  {
   "property": "C70",
   "status": "proved",
   "theorems": [
    "var_rogue0_refuted",
    "linreg_rogue0_refuted",
    "var_rogue0_one_refuted",
    "linreg_rogue0_one_refuted",
    "var_rogue1_refuted"
   ],
   "note": "All are findings: explicit programs a server may run and what they return. Which further programs exist, and the most a server can learn, is not stated."
  },
  {
   "property": "C71",
   "status": "partial",
   "theorems": [
    "var_no_answer_partial",
    "linreg_no_answer_partial",
    "var_alone_refuted",
    "linreg_alone_refuted"
   ],
   "note": "The full statement is false (the two _refuted theorems). Missing: what server 0 does when server 1 stops between the transfers and the end of the check, or in the middle of a number; and what server 1 does when server 0 stops."
  },
  {
   "property": "C72",
   "status": "partial",
   "theorems": [
    "freq_no_answer_partial",
    "freq_alone_refuted"
   ],
   "note": "The full statement is false (freq_alone_refuted). Missing: a stop inside the conversion of the shares, between the two parts of the check or inside the last message, and what server 1 does when server 0 stops."
  }
 ]
}