{"id": "C01", "title": "Byte-stream reassembly", "statement": "A blocking receive of len bytes from a connected peer returns len and leaves in the destination buffer exactly the first len bytes the peer sent, no matter how the kernel splits the stream into partial deliveries, and it consumes nothing beyond them.", "quantifier": "every message, every length and every sequence of partial deliveries by the kernel", "why_tests_cant": "Fragmentation is chosen by the kernel and the network; a loopback test sees one or two of the exponentially many splits.", "anchors": ["net_share.cpp: recv_in"]}
{"id": "C02", "title": "End of stream is reported", "statement": "If the peer closes the connection before len bytes have arrived, the receive returns 0 and never reports success; bytes of the destination buffer past the received prefix keep their old value.", "quantifier": "every length, every prefix length and every fragmentation of the prefix", "why_tests_cant": "Crash points inside a message cannot be enumerated by tests.", "anchors": ["net_share.cpp: recv_in"]}
{"id": "C03", "title": "A failing receive is reported as a failure", "statement": "If the kernel reports an error (-1) while a message is being received, the call does not return success with a corrupted buffer.", "quantifier": "every message, every fragmentation and every position of the error", "why_tests_cant": "Transient errors (EINTR and similar) are not reproducible in a unit test.", "anchors": ["net_share.cpp: recv_in"]}
{"id": "C04", "title": "Bit vectors round-trip", "statement": "Receiving a bit vector of n bits yields the vector sent, for every n (including n not a multiple of 8), uses exactly ceil(n/8) bytes and leaves the following bytes of the stream untouched.", "quantifier": "every n and every vector of n bits, every following stream content", "why_tests_cant": "Infinitely many lengths; boundary errors appear only at particular residues.", "anchors": ["net_share.cpp: send_bool_batch, recv_bool_batch"]}
{"id": "C05", "title": "Integer messages round-trip", "statement": "Every int, unsigned 32-bit, unsigned 64-bit, unsigned long, array of unsigned 64-bit and string is received exactly as sent; a size_t is received exactly iff it is below 2^32.", "quantifier": "all values of each type, all array lengths", "why_tests_cant": "2^64 values; the size_t truncation only shows beyond 4 billion.", "anchors": ["net_share.cpp: send_int, send_size, send_uint32, send_uint64, send_uint64_batch, send_ulong, send_string and their recv_ counterparts"]}
{"id": "C06", "title": "Field elements round-trip", "statement": "A field element, and an array of field elements of any length (including lengths that are split into several chunks), is received exactly as sent, in a number of bytes the receiver can compute in advance.", "quantifier": "all arrays of integers in [0, 2^64), all lengths, in particular across the chunk limit", "why_tests_cant": "The chunked path starts above a million elements; tests use tens.", "anchors": ["net_share.cpp: send_fmpz, recv_fmpz, send_fmpz_batch, recv_fmpz_batch"]}
{"id": "C07", "title": "Protocol messages round-trip", "statement": "Beaver triples, triple shares, boolean triples, opened values and their shares (single and batched), daBits, extended daBits (single and batched) and client proof packets are received exactly as sent, and the receiver consumes exactly the bytes of the message.", "quantifier": "all message contents, all batch sizes and circuit sizes, all following stream contents", "why_tests_cant": "Unbounded families of message shapes; a framing error corrupts only later messages.", "anchors": ["net_share.cpp: send_/recv_ Cor, CorShare, CorShare_batch, ClientPacket, BeaverTriple, BeaverTripleShare, BooleanBeaverTriple, DaBit, DaBit_batch, EdaBit, EdaBit_batch"]}
{"id": "C08", "title": "Additive sharing reconstructs", "statement": "The two shares produced for a value add up to the value modulo p and both lie in [0,p).", "quantifier": "every integer value and every outcome of the random generator", "why_tests_cant": "All 2^48 random outcomes matter.", "anchors": ["share.cpp: SplitShare"]}
{"id": "C09", "title": "One additive share reveals nothing", "statement": "For every value, each of the two shares taken alone is a bijective function of the uniform random draw; hence each server's share has the same (uniform) distribution whatever the value is.", "quantifier": "every pair of values and every possible share", "why_tests_cant": "A distribution over 2^48 outcomes cannot be tested exactly.", "anchors": ["share.cpp: SplitShare"]}
{"id": "C10", "title": "Multiplication triples are correct", "statement": "The locally generated triple satisfies C = A*B mod p, its shares reconstruct it, and the triple the two servers hold after the fast generation protocol satisfies (A0+A1)(B0+B1) = C0+C1 mod p.", "quantifier": "all random outcomes, all schedules of the two servers", "why_tests_cant": "Randomised and concurrent.", "anchors": ["share.cpp: NewBeaverTriple, BeaverTripleShares", "ot.cpp: generate_beaver_triple_lazy"]}
{"id": "C11", "title": "daBits are doubly-authentic", "statement": "Every daBit pair - generated locally by one server, or jointly by oblivious transfer - satisfies: the arithmetic shares add up mod p to a bit, and the boolean shares xor to the same bit. Extended daBits satisfy the same for n-bit numbers.", "quantifier": "all random outcomes, all batch sizes, all numbers of bits n", "why_tests_cant": "The rollover case the code guards against has probability about 2^-48.", "anchors": ["share.cpp: makeLocalDaBit, makeLocalEdaBit", "correlated.cpp: CorrelatedStore::generateDaBit"]}
{"id": "C12", "title": "Proof domain size", "statement": "The number of interpolation points is the least power of two strictly greater than the number of multiplication gates (for fewer than 2^31 gates).", "quantifier": "all gate counts below 2^31", "why_tests_cant": "2^31 inputs, and non-termination above.", "anchors": ["share.cpp: NextPowerOfTwo"]}
{"id": "C13", "title": "Oblivious bit sums", "statement": "After the oblivious-transfer bit-sum protocol the two servers' outputs add up, modulo 2^64, to the sum over the valid positions of the xor of the two servers' bits.", "quantifier": "all share vectors, all validity vectors, all random outcomes", "why_tests_cant": "Random masks over 2^64 per bit, unbounded vector length.", "anchors": ["ot.cpp: bitsum_ot_sender, bitsum_ot_receiver"]}
{"id": "C14", "title": "Oblivious integer conversion", "statement": "After the oblivious-transfer conversion protocol, for each valid row and column the two outputs add up (modulo 2^64, or modulo p) to the xor of the two servers' num_bits-bit inputs; for invalid rows they add up to 0.", "quantifier": "all inputs, bit widths, validity vectors, random outcomes; modulus 0 (2^64) or any modulus m with 2^k <= m for every bit position k used", "why_tests_cant": "Random masks, unbounded shapes; the failure for bit positions k >= 48 needs wide inputs.", "anchors": ["ot.cpp: intsum_ot_sender, intsum_ot_receiver", "correlated.cpp: CorrelatedStore::b2a_ot", "server.cpp: share_convert"]}
{"id": "C15", "title": "Boolean triples from oblivious transfer", "statement": "The boolean triples generated jointly satisfy (a0^a1)&(b0^b1) = c0^c1 at every position.", "quantifier": "all random outcomes of both servers, all batch sizes", "why_tests_cant": "Randomised, unbounded.", "anchors": ["ot.cpp: gen_boolean_beaver_triples"]}
{"id": "C16", "title": "Shared AND", "statement": "Multiplying shared bit vectors yields shares of the bitwise AND and consumes exactly one fresh triple per bit.", "quantifier": "all shared inputs, all store contents holding correct triples, all refill random outcomes, all schedules", "why_tests_cant": "Depends on shared store state and interleaving.", "anchors": ["correlated.cpp: CorrelatedStore::multiplyBoolShares"]}
{"id": "C17", "title": "Shared binary addition", "statement": "Adding shared binary numbers yields shares of the bits of the sum and of the final carry, for each row with its own bit width.", "quantifier": "all numbers of rows, all per-row widths, all shared inputs, all triples, all schedules", "why_tests_cant": "Unbounded widths, ragged rows.", "anchors": ["correlated.cpp: CorrelatedStore::addBinaryShares"]}
{"id": "C18", "title": "Boolean-to-arithmetic conversion", "statement": "Converting xor-shared bits with daBits yields additive shares mod p of the same bit; converting multi-bit values yields additive shares of the value, for widths up to 31 bits.", "quantifier": "all shared inputs, all daBit stores, all widths up to 31, all schedules", "why_tests_cant": "Randomised and stateful; the 32-bit shift boundary is outside the tested widths.", "anchors": ["correlated.cpp: CorrelatedStore::b2a_daBit_single, b2a_daBit_multi"]}
{"id": "C19", "title": "Correlated randomness stays correlated and is never reused", "statement": "After any history of refills and uses, the two servers' stores have the same length, the i-th entries of both stores belong together, a request for n items is always satisfied, and an item taken from the store is never handed out again.", "quantifier": "all histories of store operations, all batch sizes, all random outcomes", "why_tests_cant": "Invariants over unbounded histories of two processes.", "anchors": ["correlated.cpp: addBoolTriples, addDaBits, checkBoolTriples, checkDaBits, getBoolTriple, getDaBit, maybeUpdate"]}
{"id": "C20", "title": "Validation circuits decide the claimed relation", "statement": "The variance circuit accepts exactly the inputs (x, y) with x*x = y mod p; the regression circuit of degree d accepts exactly the inputs whose quadratic and cross fields are the corresponding products.", "quantifier": "all inputs in the field, all degrees d >= 2", "why_tests_cant": "Unbounded degree; index arithmetic errors only appear at some degrees.", "anchors": ["circuit.h: CheckVar, CheckLinReg, AddCheckMulEqual, Circuit::Eval"]}
{"id": "C21", "title": "Circuit evaluation on shares is linear", "statement": "If the two servers import shares of the inputs and of the multiplication outputs, every wire of the two imported circuits adds up mod p to the wire of the circuit evaluated on the reconstructed values.", "quantifier": "all circuits (any gates, any wiring to earlier gates), all shares", "why_tests_cant": "All circuits.", "anchors": ["circuit.h: Circuit::ImportWires, Circuit::GetMulShares"]}
{"id": "C22", "title": "FFT is polynomial evaluation, inverse FFT is interpolation", "statement": "For N a power of two up to 2^18, the forward transform evaluates the polynomial at the successive powers of the root of unity, and the inverse transform returns the coefficients of the polynomial with the given values.", "quantifier": "all power-of-two sizes up to 2^18, all coefficient vectors", "why_tests_cant": "Sizes and values unbounded for tests.", "anchors": ["poly/fft.c: fft_recurse, fft_interpolate", "constants.cpp: init_roots"]}
{"id": "C23", "title": "Evaluation from point values", "statement": "Evaluating, from values at N distinct points, at a point r gives the value at r of the unique polynomial of degree < N through them - also when r is one of the points.", "quantifier": "all N, all distinct points, all values, all r", "why_tests_cant": "Needs all r in a 2^48 field including the special points.", "anchors": ["poly/poly_batch.c: tree_init, c_precomp_init, fast_evaluate", "poly/poly_once.c: precomp_x_init, precomp_x_eval"]}
{"id": "C24", "title": "Honest proofs are accepted", "statement": "If the client's values satisfy the circuit and the packet was built by the client library, both servers accept, whatever random point, random coefficients and client randomness are used.", "quantifier": "all circuits, all satisfying inputs, all random outcomes, all r", "why_tests_cant": "A completeness error at special points has probability about 2^-40.", "anchors": ["client.h: share_polynomials", "server.h: Checker", "server.cpp: validate_snips"]}
{"id": "C25", "title": "Dishonest proofs are rejected except for few random challenges", "statement": "If the shared inputs do not satisfy the circuit then, whatever packets a malicious client sends to the two servers, for all but at most 2N evaluation points r the servers' check is not identically zero, and then for each choice of the other random coefficients at most one value of the remaining coefficient makes them accept.", "quantifier": "all circuits, all (malicious) packets and input shares, all challenges", "why_tests_cant": "Quantifies over all adversarial packets and counts challenges.", "anchors": ["server.h: Checker::evalPoly, CorShareFn, OutShare, randSum, AddToZero"]}
{"id": "C26", "title": "Both servers reach the same verdict", "statement": "For every packet, honest or not, the validity bit computed by the two servers is the same.", "quantifier": "all packets, shares, schedules", "why_tests_cant": "All adversarial packets.", "anchors": ["server.cpp: validate_snips", "server.h: AddToZero"]}
{"id": "C27", "title": "BITSUM returns the sum", "statement": "For any bytes sent by clients, server 0 answers the sum modulo 2^64, over the identities accepted by both servers, of the xor of the first bits submitted under that identity; with honest clients it is the number of clients holding 1.", "quantifier": "all client byte streams, all random outcomes, all map iteration orders, all schedules and buffer capacities", "why_tests_cant": "All inputs times all interleavings.", "anchors": ["server.cpp: bit_sum", "client.cpp: bit_sum_helper"]}
{"id": "C28", "title": "INTSUM returns the sum", "statement": "As BITSUM for num_bits-bit integers: server 0 answers the sum modulo 2^64 of the xors of the accepted shares; with honest clients it is the sum of their values.", "quantifier": "all client byte streams, widths, random outcomes, iteration orders, schedules", "why_tests_cant": "All inputs times all interleavings.", "anchors": ["server.cpp: int_sum", "client.cpp: int_sum_helper"]}
{"id": "C29", "title": "AND / OR return the conjunction / disjunction", "statement": "Server 0's answer is determined by the xor of all accepted encodings. With honest clients OR is true only if some client has 1 and AND is false only if some client has 0; the converse holds unless the non-neutral random encodings xor to zero.", "quantifier": "all client byte streams, encodings, orders and schedules", "why_tests_cant": "The failure event has probability 2^-64.", "anchors": ["server.cpp: xor_op", "client.cpp: xor_op_helper"]}
{"id": "C30", "title": "MAX / MIN return the extremum", "statement": "With honest clients the answer never exceeds the true maximum (is never below the true minimum), and equals it unless the random encodings at the extremal index xor to zero. If all positions cancel the server reads outside its buffers.", "quantifier": "all client values and encodings, all bounds B, orders and schedules", "why_tests_cant": "Failure events of probability 2^-64, unbounded B.", "anchors": ["server.cpp: max_op", "client.cpp: max_op_helper"]}
{"id": "C31", "title": "VAR / STDDEV aggregate exactly", "statement": "Server 0 reconstructs exactly the sums of x and of the claimed squares of the accepted clients modulo p, with acceptance decided by the proof; with honest clients whose sums are below p these are the true sums of x and x^2, so the printed mean and variance are those of the clients' values.", "quantifier": "all client byte streams, widths up to 24 bits, random outcomes, orders, schedules", "why_tests_cant": "All inputs times all interleavings; overflow conditions only at specific widths.", "anchors": ["server.cpp: var_op, share_convert, validate_snips, accumulate", "client.cpp: var_op_helper"]}
{"id": "C32", "title": "LINREG aggregates exactly", "statement": "Server 0 reconstructs exactly the sums of all regression fields of the accepted clients modulo p, for every degree; with honest clients these are the true moment sums and the linear system solved is the normal-equation system of the clients' data.", "quantifier": "all degrees >= 2, all client byte streams, widths up to 24 bits, orders, schedules", "why_tests_cant": "Unbounded degree, all interleavings.", "anchors": ["server.cpp: linreg_op", "circuit.h: CheckLinReg, SolveLinReg", "client.cpp: lin_reg_helper"]}
{"id": "C33", "title": "FREQ counts", "statement": "With honest clients, server 0's j-th output is the number of clients with value j. A submission that is not one-hot must not be counted.", "quantifier": "all numbers of clients and values, random outcomes, orders, schedules; all malicious submissions for the second part", "why_tests_cant": "All inputs, adversarial combinations.", "anchors": ["server.cpp: freq_op", "correlated.cpp: b2a_daBit_single"]}
{"id": "C34", "title": "One submission per identity", "statement": "If several submissions carry the same identity, only the first acceptable one at each server counts; repeating a submission never changes the result other than through the total count.", "quantifier": "all submission sequences", "why_tests_cant": "All sequences of submissions.", "anchors": ["server.cpp: share_map use in bit_sum, int_sum, xor_op, max_op, var_op, linreg_op, freq_op"]}
{"id": "C35", "title": "A single client has bounded influence", "statement": "In BITSUM (INTSUM) adding one identity to the submissions changes the sum by at most 1 (by less than 2^num_bits), whatever it sends to the two servers.", "quantifier": "all submission sequences and all malicious values", "why_tests_cant": "All adversarial values.", "anchors": ["server.cpp: bit_sum, int_sum"]}
{"id": "C36", "title": "Invalid threshold", "statement": "An operation reports failure exactly if fewer than half of the announced inputs were accepted by both servers.", "quantifier": "all submission sequences, all announced totals", "why_tests_cant": "Boundary over all counts, floating-point comparison.", "anchors": ["server.cpp: INVALID_THRESHOLD checks in all operations"]}
{"id": "C37", "title": "No deadlock, schedule-independent result", "statement": "Whatever the relative speed of the two servers and however small the socket buffers, every operation between two correctly set-up servers terminates, with the same results in every schedule.", "quantifier": "all schedules, all buffer capacities >= 1, all inputs", "why_tests_cant": "Schedules and buffer fill levels are not controllable in tests; a batch that exceeds the buffers deadlocks only at scale.", "anchors": ["server.cpp: bit_sum, int_sum, xor_op, max_op, var_op, linreg_op, freq_op, validate_snips", "correlated.cpp: fork/waitpid pattern"]}
{"id": "C38", "title": "No residue between operations", "statement": "After each completed operation no bytes are left in the channel between the servers, so any sequence of operations gives each operation the result it would have alone.", "quantifier": "all sequences of operations", "why_tests_cant": "Unbounded histories.", "anchors": ["server.cpp: main loop, all operations"]}
{"id": "C39", "title": "Challenge point consistency", "statement": "At every validation both servers use the same challenge point, and the cached precomputation for every size corresponds to the current point, also after refreshes; the point is used for at most the threshold number of proofs plus one batch.", "quantifier": "all histories of operations and batch sizes", "why_tests_cant": "Refresh occurs after a million uses.", "anchors": ["server.cpp: sync_randomX, getPrecomp, main loop", "server.h: CheckerPreComp"]}
{"id": "C40", "title": "Identities are well-formed and injective", "statement": "A generated identity has exactly 32 hexadecimal characters, and two different 128-bit random blocks give different identities.", "quantifier": "all 2^128 blocks, all pairs", "why_tests_cant": "2^128 inputs.", "anchors": ["client.cpp: pub_key_to_hex, make_pk"]}
{"id": "C41", "title": "Client crash leaves only whole records", "statement": "If a client connection ends after k complete records, the servers' tables are those of the first k records; a connection ending inside a record must not create an accepted entry with a value the client did not send.", "quantifier": "all record sequences, all crash points", "why_tests_cant": "All crash points.", "anchors": ["server.cpp: receive loops", "net_share.cpp: recv_in"]}
{"id": "C42", "title": "Iteration order is irrelevant", "statement": "The result of each operation does not depend on the iteration order of the hash table.", "quantifier": "all permutations of the table entries", "why_tests_cant": "n! orders.", "anchors": ["server.cpp: loops over share_map"]}
{"id": "C43", "title": "Opened values reveal nothing", "statement": "The values exchanged when multiplying or converting shares are the inputs masked with fresh correlated randomness: for every pair of inputs there is a bijection of the randomness giving the same opened values.", "quantifier": "all pairs of inputs, all opened values", "why_tests_cant": "Distribution statement.", "anchors": ["correlated.cpp: multiplyBoolShares, b2a_daBit_single", "server.h: CorShareFn"]}
{"id": "C44", "title": "Modulus and generator are suitable", "statement": "The field modulus is prime, and the generator has multiplicative order exactly 2^19 modulo it; the N-th and 2N-th roots computed from it are pairwise distinct.", "quantifier": "all candidate divisors, all N = 2^k up to 2^18", "why_tests_cant": "Primality of a 48-bit number.", "anchors": ["constants.h: Int_Modulus_str, Int_Gen_str, twoOrder", "constants.cpp: init_roots"]}
{"id": "C45", "title": "Least squares solution", "statement": "When the moment matrix is invertible, the exact solution of the linear system assembled from the aggregated sums minimises the sum of squared residuals over the clients' data.", "quantifier": "all data sets, all degrees", "why_tests_cant": "All real data sets.", "anchors": ["circuit.h: SolveLinReg"]}
{"id": "C46", "title": "What identities reveal", "statement": "In a run in which one client process makes several requests, the identity sent with request i determines the private value of request i+1 (BITSUM, INTSUM, AND, OR, MAX, MIN, FREQ, VAR): both servers, and anyone reading the identities, learn every private value but the first. Identities are independent of private values only in runs with a single request.", "quantifier": "all generators, all numbers of requests, all positions", "why_tests_cant": "a test sees plausible random identities; the dependence is a relation between all pairs of consecutive requests for every generator state", "anchors": ["client.cpp: make_pk (generator passed by value), *_helper"]}
{"id": "C48", "title": "Answers depend only on what the clients of the operation sent", "statement": "The answer of an operation is a function of the request and the records sent for it: it depends neither on uninitialised memory nor on data of clients of earlier operations.", "quantifier": "all earlier operations, all contents of uninitialised memory, all records", "why_tests_cant": "whether stale stack contents influence a result depends on compiler and history; a test sees one stack layout", "anchors": ["server.cpp: bit_sum, int_sum, xor_op, max_op (variable share outside the loop)", "server.cpp: main (initMsg)"]}
{"id": "C47", "title": "Oblivious transfers hide the sender's shares", "statement": "Whatever choice bits the receiving server uses in the bit-sum, integer-sum and Boolean-triple transfers, the messages it obtains tell it nothing about the sender's shares: for every value of the shares and every possible list of messages there is exactly one choice of the sender's masks (at the positions that count) which produces them.", "quantifier": "all shares, validity flags, widths, choice bits, message lists, admissible moduli", "why_tests_cant": "hiding is a statement about all mask values at once; reusing or forgetting a mask leaves every result correct", "anchors": ["ot.cpp: bitsum_ot_sender, intsum_ot_sender, gen_boolean_beaver_triples"]}
{"id": "C49", "title": "Accuracy of the printed variance and deviation", "statement": "If the sum of the squares of the accepted values stays below Int_Modulus and there are fewer than 2^32 clients, the double computed for VAR is finite, non-negative, zero exactly when all values are equal, and within 6*2^-53 times the mean square of the exact variance; the double for STDDEV is finite and correspondingly accurate. Beyond that bound the sums wrap and STDDEV can be NaN.", "quantifier": "all lists of values (all numbers of clients), all binary64 roundings to nearest even", "why_tests_cant": "cancellation in ex2 - ex*ex loses digits only for particular inputs; a test samples few", "anchors": ["server.cpp: var_op (final computation)"]}
{"id": "C50", "title": "One server's record tells nothing about the private value", "statement": "For every protocol, the record a client sends to one of the servers fits every private value the protocol allows: given any legal value and any possible record for server 0 (or for server 1), some draws of the client's generators produce both, and the client's identity is the same. For the proof packets of VAR and LINREG exactly one choice of the masks gives each possible packet. In a whole run of BIT_SUM, INT_SUM, AND, OR, MAX, MIN or FREQ everything one server receives fits every value of the first client (not of later ones, because of C46).", "quantifier": "all values, records, widths within the client's limits, degrees, sizes, generator states, both servers", "why_tests_cant": "secrecy is about all random draws at once; a forgotten or reused mask leaves all results correct", "anchors": ["client.cpp: bit_sum, int_sum, xor_op, max_op, var_op, linreg_op, freq_op", "circuit.h: share_polynomials"]}
{"id": "C51", "title": "A server following its program learns only the aggregate", "statement": "In BIT_SUM, INT_SUM, AND, OR, MAX and MIN, everything a server receives from the other server during the operation is determined, for server 0, by its own submissions, the identities the other server holds and the aggregate of the accepted values (the sum, the xor of the encodings, the xored row); server 1's messages fit any values server 0's submissions may hold. With honest clients each having a generator of its own, server 0's records, messages and answer are the same for any other private values with the same aggregate, for some draws of the clients; server 1's for any other private values. Server 0 learns the sum also when it refuses the operation.", "quantifier": "all submissions (cheaters and repeats included), numbers of clients, widths, bounds, iteration orders, schedules, masks", "why_tests_cant": "it is about what the messages could have been for all other inputs; a server that sends too much still computes right answers", "anchors": ["server.cpp: bit_sum, int_sum, xor_op, max_op", "ot.cpp: bitsum_ot_sender, intsum_ot_sender", "client.cpp: CLIENT_BATCH false"]}
{"id": "C52", "title": "Sessions of the client program with the two servers", "statement": "The client program is run any number of times, one run after the other, with any operations, numbers of requests and generators. Each run sends both servers streams which they decode to its requests; whatever the schedule both servers end with one output per run, nothing remains in the channel between them, and server 0 prints the aggregate the client program itself prints as the expected one (BIT_SUM, INT_SUM always; VAR, STDDEV, LINREG below the modulus; AND, OR, MAX, MIN unless encodings cancel, and then err to one side only). A FREQ run may be the last of the session. Without a number of bits the program divides by zero.", "quantifier": "all sequences of runs, operations, numbers of requests, widths, degrees, generators, stack contents, iteration orders, schedules, buffer sizes", "why_tests_cant": "end-to-end tests run single operations with one seed; here all histories, generators and schedules", "anchors": ["client.cpp: main, bit_sum, int_sum, xor_op, max_op, var_op, lin_reg, freq_op", "server.cpp: main"]}
{"id": "C53", "title": "In VAR, STDDEV and LINREG a server following its program learns only the sums", "statement": "Honest clients, each with a generator and proof draws of its own, submit to VAR, STDDEV or LINREG. Everything server 0 holds and receives (its records with their proofs, the identities, the messages of the proof checks and of the conversion of shares, the partial sums) and its answer are the same for any other private values with the same sums (x and x^2; for LINREG x_i, y, x_i x_j, x_i y), for some draws of the clients. What server 1 holds and receives is the same for any other private values whatever, for some draws of the clients and of server 0.", "quantifier": "all numbers of clients, values, widths up to 24 bits, degrees, generators, random points and seeds, iteration orders, schedules", "why_tests_cant": "it is about what the messages could have been for all other inputs; a server that sends unmasked values still computes right answers", "anchors": ["server.cpp: var_op, linreg_op", "net_share.cpp: CorShare batches", "correlated.cpp, ot.cpp: share conversion", "circuit.h, share.cpp: CheckVar, CheckLinReg proofs", "client.cpp: var_op, lin_reg"]}
{"id": "C54", "title": "In FREQ a server following its program learns only the counts", "statement": "Honest clients submit to FREQ. Everything server 0 holds and receives, and its answer, are the same for any other private values with the same counts, for some draws of the clients and of server 1; what server 1 holds and receives is the same for any other private values, for some draws of the clients and of server 0. This holds when the daBits are made by oblivious transfer. With the shipped LAZY_PRECOMPUTE, where server 0 deals the daBits, it is false for server 0: from its log it computes the row shared under every identity, whatever the submissions; for server 1 it holds unless one of the halves it is dealt equals 1, which tells the bit.", "quantifier": "all numbers of clients, values, widths up to 30 bits, batch sizes, generators, tapes of both servers, iteration orders, schedules, buffers that hold the validity bits", "why_tests_cant": "it is about what the messages could have been for all other inputs; the answers are right in either setting", "anchors": ["server.cpp: freq_op", "correlated.cpp: b2a_daBit_single, addDaBits, generateDaBit", "share.cpp: makeLocalDaBit", "server.cpp: LAZY_PRECOMPUTE", "client.cpp: freq_op"]}
{"id": "C55", "title": "Arithmetic triples from homomorphic encryption", "statement": "After two servers have made their ArithTripleGenerator objects, each generateTriples(n) called on both returns n triples to each server, the parts at the same place make a Beaver triple (the product of the sums of the A and B parts is the sum of the C parts modulo Int_Modulus), and the calls finish. A server's parts cannot be foretold by the other server.", "quantifier": "all sequences of calls, all numbers of triples (any number of batches), all keys, draws and schedules, all buffer sizes", "why_tests_cant": "All numbers of batches and schedules; what can be foretold is not an output.", "anchors": ["he_triples.cpp: ArithTripleGenerator, generateTriples, serializedSwap"]}
{"id": "C56", "title": "A debugging run with spoiled requests gives the answer of the unspoiled ones", "statement": "With DEBUG_INVALID set, the client makes requests of which some are spoiled (identity of one record changed; one record under the previous request's identity; a value or a share over the bound) and prints the answer of the others. The two servers, given such a run of BITSUM or INTSUM, reject exactly the requests marked as invalid and give the printed answer when at least half of the requests are left (from 6 resp. 10 requests on); for AND/OR and MAX/MIN the answer is right in the same sense as for honest clients. For INTSUM the two shares drawn without reduction must exceed the bound (they do with the probability of a random word doing so). All this needs the bytes read through the released pointer prev_pk to be the previous identity or identities used nowhere else; otherwise a spoiled request can be counted.", "quantifier": "all numbers of requests, widths up to 63 bits, generators, tables of any size, iteration orders, schedules, contents of the released buffers meeting the condition", "why_tests_cant": "The released buffers' contents differ from run to run; each run shows one generator and one order.", "anchors": ["client.cpp: bit_sum_invalid, int_sum_invalid, xor_op_invalid, max_op_invalid", "server.cpp: bit_sum, int_sum, xor_op, max_op"]}
{"id": "C57", "title": "No bytes sent by clients stop the servers", "statement": "Whatever bytes the clients send to the two servers after the operation is chosen (not records at all, records broken off anywhere, different numbers and contents at the two servers, any proofs), both servers finish the operation in every schedule: server 0 with an answer or with the report that too few records are acceptable, server 1 without an answer; after VAR, STDDEV and LINREG their proof checkers are still in agreement. True of INT_SUM, AND, OR; true of BIT_SUM if every value byte is 0 or 1, else the behaviour is undefined; true of MAX and MIN except that server 0 reads out of bounds when all positions cancel; true of VAR, STDDEV and LINREG unless no record at server 1 passes the bound checks, when both read from an empty array.", "quantifier": "all byte streams at either server, numbers of records announced, widths, table sizes, degrees, contents of the receiving variables, random draws, iteration orders, schedules and buffer sizes", "why_tests_cant": "All byte strings of all lengths and all schedules.", "anchors": ["server.cpp: bit_sum, int_sum, xor_op, max_op, var_op, linreg_op", "net_share.cpp: recv_ClientPacket", "share.cpp, server.cpp: validate_snips"]}
{"id": "C58", "title": "Honest submissions count, whatever the other clients send", "statement": "Submissions made by the client program (in any number of runs) that reach both servers, with nobody's submission accepted earlier under the same identity, are all in the answer, whatever other submissions arrive in between, in whatever order at the two servers. The answer is the honest clients' sum plus the contribution of some number k of other clients, where each of these moves the sum by no more than one value of the announced range: 1 in BIT_SUM, 2^b-1 in INT_SUM, 2^b-1 for each value and 2^2b-1 for each product in VAR, STDDEV and LINREG. In FREQ, if the rows' total weight differs from the announced number, each other client adds exactly one to one place; if it agrees, an other client can add one in any number of places. Server 0 withholds the answer only if the honest and the k others together are less than half of the announced number.", "quantifier": "all numbers of honest clients, generators and proof draws, all other submissions (well-formed or not, with valid or invalid proofs, different at the two servers), widths, degrees, orders, schedules", "why_tests_cant": "All possible adversarial submissions and interleavings; a test tries a few.", "anchors": ["server.cpp: bit_sum, int_sum, var_op, linreg_op, freq_op", "client.cpp: bit_sum_helper, int_sum_helper, var_op_helper, lin_reg_helper, freq_helper"]}
{"id": "C59", "title": "In AND, OR, MAX and MIN one server's view has the same distribution for all private values with the same result", "statement": "With honest clients each drawing from a generator of its own, take any two lists of first draws (which fix the private values). If the result of the operation is the same for both, then every set of (records of server 0, aggregate) comes from equally many of the remaining draws of all clients, and server 0 receives the same messages and gives the same answer under a permutation of the draws. For server 1 this holds for any two lists of values. The private values are what the first draws give in both cases.", "quantifier": "all numbers of clients, all values, all bounds B within the limits, all events, both servers, all iteration orders and schedules", "why_tests_cant": "equality of distributions over 2^384 or more draws per client; a biased mask passes all functional tests", "anchors": ["client.cpp: xor_op_helper, max_op_helper", "server.cpp: xor_op, max_op", "share.h"]}
{"id": "C60", "title": "No answer from one server when the other stops in the middle of a run", "statement": "If server 1's process ends before it has sent its last message of BIT_SUM, INT_SUM, AND, OR, MAX or MIN, server 0 reports no answer. (True while the oblivious transfers are still to come; false later: server 0 then answers from an uninitialised variable, and every value is a possible answer.)", "quantifier": "all submissions, all bytes server 1 sent before stopping, all contents of the uninitialised memory, all schedules and buffer sizes", "why_tests_cant": "needs a process killed between two messages; what is then printed depends on stack contents, and usually looks plausible", "anchors": ["net_share.cpp: recv_in", "server.cpp: bit_sum, int_sum, xor_op, max_op, get_pk"]}
{"id": "C61", "title": "In VAR, STDDEV and LINREG one server's view has the same distribution for all private values with the same sums", "statement": "With honest clients each drawing from generators of its own (the value, shares and identity from one, the shares of the proof from another), take two lists of private values with the same sums of all the fields the operation adds. The draws that give the first values and those that give the second are paired off so that server 0 has the same records, receives the same messages and gives the same answer in both of a pair; so every view comes from equally many draws. For server 1 this holds for any two lists of values, counting server 0's draws as well.", "quantifier": "all numbers of clients, all values, all widths and degrees within the limits, all views, both servers, all iteration orders and schedules", "why_tests_cant": "equality of distributions over more than 2^512 draws per client; a biased share, or one draw of the proof used twice, passes all functional tests", "anchors": ["client.cpp: var_op_helper, lin_reg_op_helper", "share.h", "server.cpp: var_op, linreg_op", "client.h: share_polynomials"]}
{"id": "C62", "title": "Built without the oblivious-transfer conversion, VAR, STDDEV and LINREG give the same answers up to 15 bits", "statement": "With USE_OT_B2A set to false the servers convert the shares with daBits. For widths up to 15 bits, arbitrary submissions and paired stores, every schedule terminates with the number of identities whose proof checks and the sums of their fields, the stores stay paired and the daBits used are exactly those of the accepted records' bits; a run with honest clients gives the true sums. This must hold for every width the command line admits; it does not: at 16 bits an honest client with the value 50000 is rejected, because the weight of bit 31 is a negative int, and from 17 bits the shift is undefined.", "quantifier": "all streams at both servers, all stores, tapes, iteration orders and schedules; all widths; all degrees of LINREG within the limit of the roots", "why_tests_cant": "only inputs whose square has bit 31 set are affected, and only in a build that is not the default; the correctness quantifies over all streams and stores", "anchors": ["server.cpp: share_convert (153-193)", "correlated.cpp: b2a_daBit_multi (268-303)", "server.cpp: var_op, linreg_op", "constants.h: USE_OT_B2A"]}
{"id": "C63", "title": "A build that does not fork gives the same results with large socket buffers and deadlocks below an exact size", "statement": "With do_fork false a server sends its whole message of an exchange before it reads the other's. For every pair of server programs whose forking runs always end with results a and b, the runs without fork end with the same results on every schedule once the socket buffers are large enough. For the exchanges of the code the size is exact: it is the length of the shorter message; below it both servers stand in send for ever on every schedule. For VAR, STDDEV and LINREG it is 16 bytes per identity accepted by server 1, for n ANDs 2*ceil(n/8) bytes, for n conversions ceil(n/8), for a swap of serialised keys or ciphertexts their total length with headers. FREQ deadlocks as soon as one bit per counter of each identity heard no longer fits. With fork any buffer of one byte suffices.", "quantifier": "all streams, stores, tapes, iteration orders, schedules and buffer sizes; for the large-buffer half, all pairs of server programs", "why_tests_cant": "tests run on one machine's buffer size; the deadlock depends on the number of submissions and on the kernel's buffers, and its absence has to hold for all schedules", "anchors": ["correlated.h: do_fork (65-79)", "correlated.cpp: multiplyBoolShares (139-165), b2a_daBit_single (238-263)", "server.cpp: validate_snips (226-268)", "he_triples.cpp: serializedSwap (23-46)"]}
{"id": "C64", "title": "The number of challenges that let a cheating client of VAR, STDDEV or LINREG through is bounded, for whole operations", "statement": "Of the p^(n+1) challenges (a point of the field and n coefficients) at most 2N+1 in p let through a submission whose values do not satisfy the circuit, whatever its packets; N is the number of multiplication gates rounded up to a power of two. For a whole run of VAR, STDDEV or LINREG with any clients: but for at most c(2N+1)/p of the challenges, c being the number of untruthful identities, the answer is that of some truthful identities alone (with p about 2^47: c*5/2^47 for VAR). The claim is about challenges chosen independently of the packets.", "quantifier": "all submissions, packets, orders, server states, other clients' behaviour; counting over all challenges", "why_tests_cant": "the fraction is about 2^-44; only a count over the whole space of challenges shows it, and it must hold for every packet a cheater may construct", "anchors": ["server.cpp: validate_snips (226-268), var_op, linreg_op", "server.h: Checker, randSum (200-310)"]}
{"id": "C65", "title": "A VAR, STDDEV or LINREG submission is accepted with every challenge exactly when its values and its proof are right; every other one with a negligible part of the challenges", "statement": "A submission passes with every challenge (point and coefficients) if and only if its values satisfy the circuit and its two packets share what the client's code would share for those values with some random numbers; otherwise it passes with at most (2N+1)/p of the challenges, N being the number of multiplication gates rounded up to a power of two. Given the values, all that right packets share follows from the client's draws f0, g0, A, B, so a right packet spoiled in one component (with g0 or B not 0 where the component is f0 or A) is found out. For whole runs with any clients: but for (|L|-|T|)(2N+1)/p of the challenges the answer counts exactly the well-proved identities T of the acceptable identities L.", "quantifier": "all circuits, values, packets, orders, server states, other clients' behaviour; counting over all challenges", "why_tests_cant": "acceptance is decided at one point by one linear combination; that nothing lies between always and almost never, for every possible packet, is a statement about the whole challenge space", "anchors": ["server.h: Checker (134-310)", "server.cpp: validate_snips (226-268), var_op, linreg_op", "client.h: share_polynomials"]}
{"id": "C66", "title": "A debugging run of VAR, STDDEV or LINREG yields the answer the client prints, for the requests it did not spoil", "statement": "With DEBUG_INVALID set, a client of VAR, STDDEV or LINREG makes n requests, of which it spoils twelve (a value over the cap, a share over the cap, wrong squares or products in the values or the proof, single components of the packets increased by one, altered or repeated identities), and prints the answer for the others. With n >= 24 the run is always made and sent; the twelve are left out; the printed count and sums are those of the rest modulo 2^64, and except for 30 (LINREG: 54) of p of the challenges the servers answer with the count and sums of the rest modulo p. Needed of chance: the draws used unreduced exceed their bounds, the g(0) and B drawn for two spoiled requests are not 0, and the released buffers read for two identities hold what they held or something foreign.", "quantifier": "all widths 1..24, numbers of requests >= 24, generators, tapes, contents of released buffers (with the stated condition), iteration orders, server states; counting over all challenges", "why_tests_cant": "which spoiled requests are found out depends on the challenge and on all draws; a passing debugging run shows only that one challenge found twelve particular faults", "anchors": ["client.cpp: var_op_invalid (880-1010), lin_reg_invalid (1234-1400)", "server.cpp: var_op, linreg_op", "server.h: Checker (134-310)"]}
{"id": "C67", "title": "A server's behaviour stays defined whatever program runs at the other server, except in exactly the cases found", "statement": "Nothing is assumed of the other server: it may send any bytes and take part in the oblivious transfers with any values. BIT_SUM, INT_SUM, AND and OR never become undefined on either server, and end, if at all, with an answer or a refusal. The same holds for server 1 of MAX and MIN, and of VAR, STDDEV and LINREG when it holds an acceptable record. Server 0 of MAX and MIN becomes undefined exactly if enough known identities are announced and its own xor is echoed (for which one known identity suffices); server 0 of VAR, STDDEV and LINREG exactly if no identity is announced, or one it knows is announced twice (its packet is then freed twice; in VAR and STDDEV this is reached once the messages of the proofs, 24 bytes per announced identity, have arrived); server 0 of FREQ exactly if more identities are announced than records were expected or the byte of the parity is neither 0 nor 1; server 1 of FREQ exactly if one certain byte is neither 0 nor 1.", "quantifier": "all programs at the other end, schedules, buffer sizes; all client streams, widths, orders, server states", "why_tests_cant": "a test would need to try every byte string a dishonest server can send; the harmful ones depend on the data of the tested server", "anchors": ["server.cpp: bit_sum, int_sum, xor_op, max_op, var_op, linreg_op, freq_op (296-1443), validate_snips (197-272)", "net_share.cpp: recv_bool, recv_size"]}
{"id": "C68", "title": "An answer is about at least half of the announced clients, even if server 1 departs from the code in whom it announces", "statement": "Server 0 answers BIT_SUM, INT_SUM, AND, OR, MAX, MIN only if at least half of the records it expected are counted, so that an answer never concerns fewer clients, also if server 1 does not announce every entry of its table once. Holds: the identities announced and known number at least half. Fails: they need not be different. Server 1 can have any list of accepted identities aggregated, each as often as it occurs in the list; by repeating one identity it learns from the printed answer that client's value.", "quantifier": "all client streams, iteration orders, lists of identities, numbers of repetitions, widths, randomness, schedules; first part: all bytes from server 1", "why_tests_cant": "the tests run the same code on both servers, which announces every identity once", "anchors": ["server.cpp: bit_sum, int_sum, xor_op, max_op (296-699): loops over pk and checks of num_inputs against INVALID_THRESHOLD"]}
{"id": "C69", "title": "What a server can learn of the other server's shares by running a program of its own", "statement": "One server departs from the code in BIT_SUM, INT_SUM, AND, OR, MAX or MIN and runs any program instead. If it is server 1, it learns nothing of server 0's shares beyond which identities server 0 accepts: with any other values under the same identities, server 0 would behave towards it in exactly the same way under equally likely masks. If it is server 0, it learns at most one number: a weighted sum modulo 2^64 of the bits of server 1's shares (BIT_SUM, INT_SUM), or the xor of the shares of one set of clients (AND, OR, MAX, MIN); but weights and set are of its own choosing, so that it can read off the shares of any 64 clients in one BIT_SUM, of as many clients as fit in 64 bits in one INT_SUM, of any one client in the others, while server 1 notices nothing.", "quantifier": "all programs at the departing server, client streams, shares with the same identities, widths, iteration orders, randomness, schedules, buffer sizes", "why_tests_cant": "the claims quantify over all programs and compare runs on different inputs; the tests run the code on both servers", "anchors": ["server.cpp: bit_sum, int_sum, xor_op, max_op (296-699)", "ot.cpp: bitsum_ot_sender, bitsum_ot_receiver, intsum_ot_sender, intsum_ot_receiver (56-215)"]}
{"id": "C70", "title": "What a server can learn in VAR, STDDEV and LINREG by running a program of its own", "statement": "The proofs of the clients do not stop a dishonest server. In VAR, STDDEV and LINREG, server 0 can obtain the sums over any set of clients of its choice, in particular the private values of any single client, whatever the proofs say, while server 1 runs the code to its end. In VAR and STDDEV, server 1 can learn any one bit of the square of the private value of every client of its choice, because server 0 tells it which submissions passed the check and it can make that depend on the bit; server 0 runs the code to its end and answers without the clients that have the bit set.", "quantifier": "all client streams, widths up to 24 bits, degrees, sets of clients, bits, iteration orders, randomness, schedules, buffer sizes; for server 1, all clients prove honestly and no coefficient of the check is zero", "why_tests_cant": "the tests run the code on both servers; the claims are about a departing server and all inputs and schedules", "anchors": ["server.cpp: share_convert, validate_snips, accumulate, var_op, linreg_op (153-1194)", "ot.cpp: intsum_ot_sender, intsum_ot_receiver"]}
{"id": "C71", "title": "No answer of VAR, STDDEV or LINREG from one server when the other stops in the middle of a run", "statement": "If server 1's process ends before it has sent the end of its last message of VAR, STDDEV or LINREG, server 0 reports no answer. (True while the oblivious transfers are still to come: server 0 then never finishes. False before the last message: server 0 takes its own shares of the sums for the sums in VAR and STDDEV, which is wrong unless server 1's share is zero; in LINREG it solves the equations for the running sums of its own shares, because one variable is used for all receives. If server 1 stops between the numbers of its last message, the sums before that are right and the others are not.)", "quantifier": "all client streams, widths up to 24 bits, degrees, iteration orders, randomness, schedules and buffer sizes; for the first part all bytes server 1 sent before stopping and all contents of the variables", "why_tests_cant": "needs a process killed between two messages; what is then printed is a plausible number", "anchors": ["net_share.cpp: recv_in, recv_fmpz (21-29, 188-210)", "server.cpp: validate_snips (197-273), var_op (867-898), linreg_op (1143-1193)"]}
{"id": "C72", "title": "No answer of FREQ from one server when the other stops in the middle of a run", "statement": "If server 1's process ends before it has sent the end of its last message of FREQ, server 0 reports no answer. (False before the last message: server 0 then reports its own shares of the counts as the counts, which is wrong wherever server 1's share is not zero. If server 1 stops earlier, before its part of the check, server 0 reports an answer only if its own shares of the rows add up to the number of submissions, or enough of them add up to 1, by chance.)", "quantifier": "all rows received, widths up to 30 bits, iteration orders, stores, schedules and buffer sizes; for the second part all contents of the uninitialised destinations", "why_tests_cant": "needs a process killed between two messages; what is then printed are plausible numbers", "anchors": ["net_share.cpp: recv_in, recv_fmpz_batch (21-29, 240-267)", "server.cpp: freq_op (1361-1443)"]}
