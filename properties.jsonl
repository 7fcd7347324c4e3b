{"id": "C01", "title": "field.mul is multiplication in GF(2^128)", "statement": "With the pure-Python kernel, field.mul(a,b) of two 128-bit elements returns the unique polynomial of degree < 128 congruent to a*b modulo x^128+x^7+x^2+x+1 over GF(2); hence it is commutative, associative, distributes over xor, has unit 1 and has no overflow outside 128 bits.", "quantifier": "all pairs/triples of 128-bit operands", "why_tests_cant": "2^256 operand pairs; a reduction bug shows only for operands with high bits set", "anchors": ["mplang/kernels/py_kernels.py:_gf128_clmul64,_gf128_clmul128,_gf128_reduce,gf128_mul_single,gf128_mul_batch"]}
{"id": "C02", "title": "where the native and Python field.mul kernels agree", "statement": "The native and the Python field.mul kernels agree exactly on products without bits at or above 192, for all elements; the native product is bilinear.", "quantifier": "all pairs of 128-bit operands", "why_tests_cant": "existing tests compare the native kernel only with itself", "anchors": ["mplang/kernels/gf128.cpp:gf128_mul", "mplang/kernels/py_kernels.py:gf128_mul_single", "mplang/backends/field_impl.py:_gf128_mul_impl"]}
{"id": "C03", "title": "OKVS decode inverts OKVS solve", "statement": "With the Python kernels, whenever field.solve_okvs(keys, values, m, seed) returns a store, field.decode_okvs(keys, store, seed) returns exactly values, for every position, and the store has m rows.", "quantifier": "all key lists (including duplicates), values, table sizes m, seeds, and all hash functions into [0,m)^3", "why_tests_cant": "success depends on the hypergraph; the invariant must hold for every peeling order", "anchors": ["mplang/kernels/py_kernels.py:okvs_solve,okvs_decode,_hash_key_py", "mplang/kernels/okvs.cpp:solve_okvs,decode_okvs"]}
{"id": "C04", "title": "OKVS solve never reports success on an unsolvable instance, and always terminates", "statement": "With the Python kernels, solve_okvs terminates; if the keys cannot all be peeled, in particular if a key is repeated or the table has no rows, the caller gets an error, and in no other case.", "quantifier": "all key lists, sizes and seeds, both kernels", "why_tests_cant": "failing instances have negligible probability under random tests", "anchors": ["mplang/kernels/py_kernels.py:okvs_solve", "mplang/kernels/okvs.cpp:solve_okvs"]}
{"id": "C05", "title": "the optimized OKVS kernels are interchangeable with each other", "statement": "A store produced by field.solve_okvs_opt is decoded correctly by field.decode_okvs_opt for every key that was encoded, however many keys are decoded at once.", "quantifier": "all encode key sets, decode subsets, table sizes and seeds", "why_tests_cant": "kernel choice depends on n>=200000 and m/n>=1.32, thresholds no unit test crosses with different key counts", "anchors": ["mplang/backends/field_impl.py:_okvs_solve_opt_impl,_okvs_decode_opt_impl", "mplang/kernels/okvs_opt.cpp:solve_okvs_opt,decode_okvs_opt"]}
{"id": "C06", "title": "LDPC syndrome encoding is linear", "statement": "field.ldpc_encode(x xor y) = ldpc_encode(x) xor ldpc_encode(y), and row i is the xor of the message blocks listed in CSR row i.", "quantifier": "all messages and all CSR matrices", "why_tests_cant": "linearity quantifies over all messages", "anchors": ["mplang/kernels/py_kernels.py:ldpc_encode", "mplang/kernels/ldpc.cpp:ldpc_encode"]}
{"id": "C07", "title": "Oblivious transfer delivers exactly the chosen message", "statement": "In the 1-of-2 base OT every receiver with choice bit b ends with message m_b for every transfer of the batch, for all keys, randomness and messages.", "quantifier": "all batches, choice bits, messages, group exponents and any abelian group", "why_tests_cant": "randomised protocol over a huge group", "anchors": ["mplang/libs/mpc/ot/base.py"]}
{"id": "C08", "title": "IKNP OT extension delivers exactly the chosen message", "statement": "After the extension, row i of the receiver satisfies t_i = q_i xor (r_i * s), and transfer_extension gives the receiver m_{r_i} in every row.", "quantifier": "all base seeds, choice bits, message counts and PRG/hash functions", "why_tests_cant": "must hold for every seed and choice vector", "anchors": ["mplang/libs/mpc/ot/extension.py"]}
{"id": "C09", "title": "Gilboa VOLE correlation", "statement": "With the Python kernels, the outputs of the Gilboa VOLE protocol satisfy w = v xor u*Delta in GF(2^128) at every index, for every randomness, and the protocol completes except for the degenerate draws at which the base transfer fails.", "quantifier": "all u, Delta, masks, lengths", "why_tests_cant": "correlation is an algebraic identity over 2^128 elements", "anchors": ["mplang/libs/mpc/vole/gilboa.py"]}
{"id": "C10", "title": "Silent VOLE expansion preserves the correlation", "statement": "With the Python kernels, silent VOLE expansion of a base VOLE (u,v,w,Delta) with the public 0/1 code yields n outputs satisfying w = v xor u*Delta at every index, for every n.", "quantifier": "all base correlations, code matrices and expansion lengths", "why_tests_cant": "identity over all inputs", "anchors": ["mplang/libs/mpc/ot/silent.py"]}
{"id": "C11", "title": "Silver VOLE outputs are VOLE-correlated", "statement": "silver_vole and silver_vole_ldpc return (u,v,w,Delta) with w = v xor u*Delta at every index.", "quantifier": "all randomness and lengths", "why_tests_cant": "a probabilistic identity", "anchors": ["mplang/libs/mpc/vole/silver.py:silver_vole,silver_vole_ldpc"]}
{"id": "C12", "title": "PSI tags agree on the intersection", "statement": "In RR22 PSI with the Python kernels, an item held by both parties produces equal tags on both sides, for every set, table size, seed and Delta; the tag of an item not in common differs before hashing by a nonzero multiple of Delta; the protocol completes whenever the receiver's items can be encoded.", "quantifier": "all key sets, OKVS stores, VOLE correlations", "why_tests_cant": "quantifies over sets and randomness", "anchors": ["mplang/libs/mpc/psi/rr22.py"]}
{"id": "C13", "title": "Cuckoo insertion keeps the table sound", "statement": "After cuckoo insertion, every occupied slot holds an input item stored at one of its three candidate slots, no item appears twice, and every item reported as placed is found by lookup.", "quantifier": "all item lists, hash functions and table sizes", "why_tests_cant": "eviction chains are data dependent", "anchors": ["mplang/libs/mpc/psi/cuckoo.py"]}
{"id": "C14", "title": "OPRF sender and receiver agree on matching rows", "statement": "The receiver's OPRF output for its item i equals the sender's batch evaluation of the same item at row i, for every seed; for different items the two are equal exactly if the items agree on the bits the sender's secret selects (for a hash without collisions).", "quantifier": "all items, seeds, base OT choices", "why_tests_cant": "cryptographic identity over all randomness", "anchors": ["mplang/libs/mpc/psi/oprf.py"]}
{"id": "C15", "title": "oblivious permutation applies the permutation", "statement": "The permutation network computed for perm and applied to data yields out[i] = data[perm[i]] for every length n (padded to a power of two).", "quantifier": "all lengths n, all permutations, all data", "why_tests_cant": "n! permutations for every n", "anchors": ["mplang/libs/mpc/analytics/permutation.py"]}
{"id": "C16", "title": "rotate-and-sum computes the slot sum", "statement": "aggregation.rotate_and_sum(ct,k) leaves in slot 0 the exact sum of the first k slots for every power of two k, independent of slot contents beyond k only when they are zero padded.", "quantifier": "all slot vectors, all k", "why_tests_cant": "k and slot counts are unbounded", "anchors": ["mplang/libs/mpc/analytics/aggregation.py"]}
{"id": "C17", "title": "private group-by sum equals the plaintext segment sum", "statement": "oblivious_groupby_sum, run with BFV in one process or with the shuffle protocol, returns for every group g the sum of data[i] with group[i]=g (centred modulo the plaintext modulus, or modulo 2^64); the shuffle protocol completes except for the degenerate draws at which the base transfer fails.", "quantifier": "all data, group ids, masks, permutations", "why_tests_cant": "quantifies over data and masks", "anchors": ["mplang/libs/mpc/analytics/groupby.py"]}
{"id": "C18", "title": "bit packing utilities are inverse", "statement": "bits_to_bytes(bytes_to_bits(x)) = x for every byte array.", "quantifier": "all byte arrays", "why_tests_cant": "needs all byte values and lengths", "anchors": ["mplang/libs/mpc/_utils.py:bytes_to_bits,bits_to_bytes"]}
{"id": "C19", "title": "sparse noise has the requested number of positions in range", "statement": "generate_sparse_noise(n, weight) returns weight positions below n for every draw; two positions are always distinct.", "quantifier": "all n, weights and random draws", "why_tests_cant": "collision patterns are random", "anchors": ["mplang/libs/mpc/vole/ldpc.py:generate_sparse_noise"]}
{"id": "C20", "title": "JSON serde round trip", "statement": "from_json(to_json(x)) = x for every value built from None, bool, int, float, str, bytes, list, tuple, dict, numpy arrays and registered classes, and distinct values have distinct encodings.", "quantifier": "all values of unbounded nesting", "why_tests_cant": "infinitely many nested shapes, including dicts whose keys look like tags", "anchors": ["mplang/edsl/serde.py:to_json,from_json"]}
{"id": "C21", "title": "binary container round trip and rejection", "statement": "loads_binary(dumps_binary(x)) = x (in canonical form); every truncation of a container is rejected with an error rather than decoded to a value; trailing bytes never change the value, and fewer than four of them are rejected.", "quantifier": "all values, all byte strings", "why_tests_cant": "truncation points and lengths are unbounded", "anchors": ["mplang/edsl/serde.py:dumps_binary,loads_binary"]}
{"id": "C22", "title": "type serde round trip and constructor validation", "statement": "Every constructible MPLang type survives to_json/from_json, and ill-formed widths, dims and row counts are rejected by the constructor.", "quantifier": "all types of unbounded nesting", "why_tests_cant": "types nest unboundedly", "anchors": ["mplang/edsl/typing.py"]}
{"id": "C23", "title": "equal types hash equally", "statement": "If two types compare equal they have the same hash, so they can be used interchangeably as dict keys.", "quantifier": "all pairs of types", "why_tests_cant": "order-permuted schemas", "anchors": ["mplang/edsl/typing.py:TableType.__eq__,TableType.__hash__"]}
{"id": "C24", "title": "graphs stay in SSA form", "statement": "Any sequence of add_input/add_op/add_output/replace_input/erase calls on a Graph keeps value names unique, the recorded uses of a value equal to the operations that consume it, and the recorded defining operation right.", "quantifier": "all operation histories", "why_tests_cant": "histories are unbounded", "anchors": ["mplang/edsl/graph.py"]}
{"id": "C25", "title": "graph JSON round trip", "statement": "A graph built by any history of add_input, add_op, add_output, replace_input (by an earlier value) and erase, and read back from its JSON form, has the same inputs, operations, attributes, regions, outputs and value names.", "quantifier": "all graphs, including nested regions", "why_tests_cant": "graphs are unbounded, names arbitrary", "anchors": ["mplang/edsl/graph.py:Graph.to_json,Graph.from_json"]}
{"id": "C26", "title": "output morphing round trip", "statement": "Splitting a nested result into traced variables and constants and rebuilding it gives back the original structure, for every placement of constants.", "quantifier": "all result lists and predicates", "why_tests_cant": "all interleavings of constants and variables", "anchors": ["mplang/utils/func_utils.py:list_split,list_reconstruct,var_morph,var_demorph"]}
{"id": "C27", "title": "tracing captures each outer value once and binds inputs in order", "statement": "In a traced function the graph inputs are the parameters followed by the captured values in first-use order, each captured value exactly once, and execution binds exactly those objects.", "quantifier": "all trace histories", "why_tests_cant": "capture sequences are unbounded", "anchors": ["mplang/edsl/tracer.py"]}
{"id": "C28", "title": "interpreter reference counting never frees a live value", "statement": "Evaluating a graph with eager freeing of dead values gives the same outputs as evaluating it while keeping every value; no operation ever reads a freed value.", "quantifier": "all well-formed graphs, inputs and handlers", "why_tests_cant": "liveness depends on the graph shape", "anchors": ["mplang/runtime/interpreter.py:Interpreter.evaluate_graph"]}
{"id": "C29", "title": "asynchronous execution is schedule independent", "statement": "The asynchronous scheduler returns the same outputs as sequential execution for every order in which ready operations complete, runs every operation exactly once, and always terminates.", "quantifier": "all graphs and all completion schedules", "why_tests_cant": "exponentially many interleavings", "anchors": ["mplang/runtime/interpreter.py:_evaluate_graph_async"]}
{"id": "C30", "title": "asynchronous execution reports failures", "statement": "If some operation fails, evaluation raises one of the operations' errors for every schedule, and never returns outputs.", "quantifier": "all graphs, failing sets and schedules", "why_tests_cant": "interleavings of failures and completions", "anchors": ["mplang/runtime/interpreter.py:_evaluate_graph_async"]}
{"id": "C31", "title": "collectives compute their specification at every participant", "statement": "barrier, broadcast, allgather and allreduce over any participant set return the specified value at every participant for every message delivery schedule, and consume exactly the messages that were sent.", "quantifier": "all participant sets, values and schedules", "why_tests_cant": "message interleavings", "anchors": ["mplang/backends/simp_worker/collective_algorithms.py"]}
{"id": "C32", "title": "uniform predicate verification is unanimous", "statement": "verify_uniform_predicate returns the common value if all participants hold the same boolean, and raises at every participant otherwise.", "quantifier": "all participant sets and local predicate values", "why_tests_cant": "all assignments and schedules", "anchors": ["mplang/backends/simp_worker/collectives.py:verify_uniform_predicate"]}
{"id": "C33", "title": "shuffle delivers every routing without mutual exchange", "statement": "simp.shuffle_static delivers to each target party the value of its source party, and nothing to other parties, in every schedule, for every routing map in which no two parties send to each other.", "quantifier": "all routings and schedules", "why_tests_cant": "deadlock appears only in actual multi-party execution of 2-cycles", "anchors": ["mplang/backends/simp_worker/comm_context.py", "mplang/backends/simp_worker/ops.py", "mplang/dialects/simp.py:shuffle_static"]}
{"id": "C34", "title": "message keys never collide and peers derive the same key", "statement": "Two different messages between the same ordered pair of parties never use the same transport key, whatever programs run and whatever contexts are created, so that no message is ever overwritten in a mailbox.", "quantifier": "all call histories", "why_tests_cant": "requires all histories of sends and receives", "anchors": ["mplang/backends/simp_worker/comm_context.py"]}
{"id": "C35", "title": "mailbox delivers each message exactly once", "statement": "A receive returns the value most recently sent under that (peer,key), each message is consumed at most once, messages to distinct keys do not interfere, and an overwrite of an unread message is an error.", "quantifier": "all interleavings of sends and receives", "why_tests_cant": "unbounded histories", "anchors": ["mplang/backends/simp_worker/mem.py", "mplang/backends/simp_worker/http.py"]}
{"id": "C36", "title": "the object store returns what was stored", "statement": "In every history of calls, ObjectStore.get returns exactly the object last put under the URI and not removed since, and an error if there is none; calls on other URIs or backends and failing calls have no effect on it; list_objects returns exactly the stored URIs; store.load returns what store.save stored.", "quantifier": "all operation histories, keys and objects", "why_tests_cant": "unbounded histories", "anchors": ["mplang/runtime/object_store.py"]}
{"id": "C37", "title": "which file-system keys are accepted", "statement": "The file-system backend resolves a key without .. components to a path below the store's root; the keys it accepts are exactly those that lead below the root or below a sibling directory whose name extends the name of the root.", "quantifier": "all keys and roots", "why_tests_cant": "needs adversarial keys", "anchors": ["mplang/runtime/object_store.py:FileSystemBackend._resolve_key"]}
{"id": "C38", "title": "static parties confine values", "statement": "In any traced program, also with dynamically typed values, a value with a static party set is held at run time by no party outside the set.", "quantifier": "all argument party sets and masks", "why_tests_cant": "all combinations of static/dynamic masks", "anchors": ["mplang/dialects/simp.py:_deduce_parties,_pcall_static_trace", "mplang/backends/simp_worker/ops.py"]}
{"id": "C39", "title": "converge merges disjoint values", "statement": "simp.converge accepts exactly pairwise disjoint static party sets, its result is held by their union, and each party's value is the one it held before.", "quantifier": "all lists of party sets", "why_tests_cant": "unbounded lists of sets", "anchors": ["mplang/dialects/simp.py:_converge_ae", "mplang/backends/simp_worker/ops.py:converge"]}
{"id": "C40", "title": "collective library routings", "statement": "transfer, replicate, distribute, collect, allreplicate and permute move exactly the documented values to the documented parties.", "quantifier": "all party lists", "why_tests_cant": "unbounded party sets", "anchors": ["mplang/libs/collective.py"]}
{"id": "C41", "title": "driver results are per-party", "statement": "The driver-side collection of worker results is the transpose of the per-worker outputs: output j at party i is worker i's j-th result, with uniform arity.", "quantifier": "all world sizes and arities", "why_tests_cant": "unbounded", "anchors": ["mplang/backends/simp_driver/ops.py:_collect_to_hostvars"]}
{"id": "C42", "title": "cluster specification validity and round trip", "statement": "ClusterSpec.from_dict accepts exactly configurations whose devices reference known nodes and whose PPUs have one member; node j gets rank j; endpoints are listed in rank order; whatever from_dict or simple builds survives to_dict/from_dict unchanged, and of other specifications exactly the regular ones.", "quantifier": "all configurations", "why_tests_cant": "unbounded configurations", "anchors": ["mplang/libs/device/cluster.py"]}
{"id": "C43", "title": "device inference is total and order independent", "statement": "Automatic device inference picks a device for a set of arguments independent of argument order, and rejects ambiguous combinations.", "quantifier": "all argument device lists", "why_tests_cant": "all combinations", "anchors": ["mplang/libs/device/api.py:_infer_device_from_args"]}
{"id": "C44", "title": "device transfers keep plaintext confined", "statement": "put/move between devices makes a plaintext known only to its source and to the destination's members (as shares or ciphertext for SPU/TEE); no other party learns it.", "quantifier": "all device pairs and clusters", "why_tests_cant": "all topologies", "anchors": ["mplang/libs/device/api.py:_d2d"]}
{"id": "C45", "title": "fetch of a secret-shared value reconstructs it", "statement": "fetch(x) of an SPU-resident object returns the reconstructed plaintext.", "quantifier": "all values and sharings", "why_tests_cant": "all sharings", "anchors": ["mplang/libs/device/api.py:fetch"]}
{"id": "C46", "title": "SPU links are used only by their own parties", "statement": "Over network links (brpc), every SPU execution at a rank uses a link created for exactly its own parties, whatever ran before.", "quantifier": "all pairs of SPU devices", "why_tests_cant": "cache collisions depend on two devices with same local rank/size", "anchors": ["mplang/backends/spu_state.py"]}
{"id": "C47", "title": "request life cycle", "statement": "A request completes at most once and its observable status is the fate of its operation and monotone; wait returns the value or raises the recorded error; test, wait_all, wait_any, testall and testany return exactly what the fates of the requests determine, for all histories of requests whose operations raise ordinary errors.", "quantifier": "all event interleavings", "why_tests_cant": "unbounded interleavings", "anchors": ["mplang/backends/simp_worker/base.py"]}
{"id": "C48", "title": "job status answers are truthful", "statement": "If job ids are not reused, no answer to a status poll says anything false about the job, and a poll after the job's thread has finished gives the final status with the result or error, in every interleaving.", "quantifier": "all interleavings of poller and worker", "why_tests_cant": "race window of two assignments", "anchors": ["mplang/backends/simp_worker/http.py:_do_execute_async"]}
{"id": "C49", "title": "at most one asynchronous job runs at a time", "statement": "The worker accepts an asynchronous job exactly if no job is pending or running, so at most one runs at a time, and it never stays busy by itself: once the jobs have run the next one is accepted.", "quantifier": "all request histories", "why_tests_cant": "unbounded histories", "anchors": ["mplang/backends/simp_worker/http.py"]}
{"id": "C50", "title": "table batch reader loses no rows", "statement": "Reading a table with any batch size returns all rows once, in order, in batches of exactly the requested size except the last.", "quantifier": "all source batchings and batch sizes", "why_tests_cant": "all chunkings", "anchors": ["mplang/backends/table_impl.py:TableReader"]}
{"id": "C51", "title": "multi-table write keeps rows aligned", "statement": "Writing several tables side by side writes every row of each, or fails if the row counts differ.", "quantifier": "all tables and chunkings", "why_tests_cant": "lengths at batch boundaries", "anchors": ["mplang/backends/table_impl.py:MultiTableReader,write_impl"]}
{"id": "C52", "title": "program artifacts validate on load", "statement": "A program compile returns validates; the validator accepts exactly the programs that agree with their graph; unpack accepts, whatever bytes it gets, only programs whose arity, opcode set, world size (unless absent) and digest (unless empty) agree with the graph; pack then unpack gives the program back with dict items in name order; a graph accepted under the digest of another one is the same or a hash collision is exhibited.", "quantifier": "all programs and tampered payloads", "why_tests_cant": "unbounded graphs", "anchors": ["mplang/tool/program.py", "mplang/edsl/program.py"]}
{"id": "C53", "title": "graph execution key is name independent", "statement": "Two graphs that differ only in SSA names, in the order of attributes or in the order of the items of dict attributes get the same execution key.", "quantifier": "all graphs and renamings", "why_tests_cant": "unbounded graphs", "anchors": ["mplang/backends/simp_worker/ops.py", "mplang/runtime/interpreter.py:_graph_exec_key"]}
{"id": "C54", "title": "key generation is independent per call", "statement": "Two bfv.keygen calls, in particular by two different parties, yield independent secret keys.", "quantifier": "all call histories", "why_tests_cant": "cache state depends on history", "anchors": ["mplang/backends/bfv_impl.py:keygen_impl"]}
{"id": "C55", "title": "control flow keeps its meaning under tracing", "statement": "A function traced through uniform_cond, while_loop and pcall and then executed as a graph returns the same structure of values and constants as running the function directly, for every predicate value and number of iterations, if the branches of a conditional return the same constants and loop conditions are not constants; in particular if all functions return only objects.", "quantifier": "all traced functions with nested branches, loops and closures, all inputs", "why_tests_cant": "branches not taken at trace time, unbounded iteration counts and all placements of constants in branch results", "anchors": ["mplang/dialects/simp.py:uniform_cond,while_loop", "mplang/edsl/tracer.py:Tracer,TracedFunction", "mplang/runtime/interpreter.py:evaluate_graph"]}
{"id": "C56", "title": "failing puts are harmless", "statement": "A put() that fails for any reason but the serialisation of the object leaves every stored object as it was.", "quantifier": "all persistent keys already stored, all failing puts", "why_tests_cant": "every failure point of put over every prior history", "anchors": ["mplang/runtime/object_store.py:FileSystemBackend.put,FileSystemBackend.get"]}
{"id": "C57", "title": "a failed table write leaves no partial file", "statement": "Writing a table as Parquet or CSV either returns and the file holds exactly the batches that were read, or raises and leaves no file at the path.", "quantifier": "all tables, chunkings, formats and failure points", "why_tests_cant": "every row position at which reading can fail", "anchors": ["mplang/backends/table_impl.py:write_impl,MultiTableReader"]}
{"id": "C58", "title": "the base OT hides the choice bit", "statement": "In the base OT the point the receiver sends for one transfer has the same distribution over its secret scalar whichever choice bit it encodes: the scalars pair up one to one so that a scalar used with choice 0 and its partner used with choice 1 send the same point.", "quantifier": "all choice bits, sender points and receiver scalars in a cyclic group", "why_tests_cant": "a statement about distributions over the whole group, not about one run", "anchors": ["mplang/libs/mpc/ot/base.py:transfer"]}
{"id": "C59", "title": "silent VOLE outputs are fresh for every index", "statement": "silent_vole_random_u with n outputs expands with independent masks for every output index, so outputs at different indices do not coincide systematically.", "quantifier": "all n, seeds, base correlations and index pairs", "why_tests_cant": "tests use fewer outputs than one internal chunk of 100000", "anchors": ["mplang/libs/mpc/ot/silent.py:silent_vole_random_u"]}
{"id": "C60", "title": "unbalanced PSI marks exactly the matching client items", "statement": "psi_unbalanced returns one indicator per client item: 1 for every item the server holds, and otherwise 1 only if the server's table happens to decode the item's key to its value.", "quantifier": "all server and client sets, seeds and table sizes", "why_tests_cant": "sets and seeds are unbounded and false positives need a hash accident", "anchors": ["mplang/libs/mpc/psi/unbalanced.py:psi_unbalanced", "mplang/backends/field_impl.py:_okvs_solve_impl,_okvs_decode_impl"]}
{"id": "C61", "title": "evaluation keys do not decrypt", "statement": "The Galois and relinearisation keys made from a BFV secret key let their holder rotate and relinearise but not decrypt; in the group-by the receiver, who is sent them, cannot read the sender's data.", "quantifier": "all data, keys and protocol runs", "why_tests_cant": "a statement about everything a recipient can compute", "anchors": ["mplang/backends/bfv_impl.py:make_galois_keys_impl,make_relin_keys_impl", "mplang/libs/mpc/analytics/groupby.py:oblivious_groupby_sum_bfv"]}
{"id": "C62", "title": "shuffle group-by reveals only sums and bin sizes", "statement": "In oblivious_groupby_sum_shuffle the receiver's view depends on the data only through the group sums (same distribution over masks), and the helper's view does not depend on the data.", "quantifier": "all data vectors, masks and bins", "why_tests_cant": "a statement about distributions of views over all masks", "anchors": ["mplang/libs/mpc/analytics/groupby.py:oblivious_groupby_sum_shuffle"]}
{"id": "C63", "title": "sparse aggregation delivers every requested sum", "statement": "aggregate_sparse leaves in every target slot the sum of its listed source slots and zero elsewhere.", "quantifier": "all slot vectors and all aggregation requests", "why_tests_cant": "requests and slot layouts are unbounded", "anchors": ["mplang/libs/mpc/analytics/aggregation.py:aggregate_sparse"]}
{"id": "C64", "title": "bucket aggregation yields the bucket sums", "statement": "After batch_bucket_aggregate, extract_bucket_results returns the sum of every bucket region, for every number of buckets and samples per bucket that fit.", "quantifier": "all slot vectors, bucket counts and bucket sizes", "why_tests_cant": "the failing combinations depend on divisibility by the row size", "anchors": ["mplang/libs/mpc/analytics/aggregation.py:batch_bucket_aggregate,extract_bucket_results"]}
{"id": "C65", "title": "encrypted gradient histogram equals the plaintext histogram", "statement": "The histogram the active party decrypts for a tree node equals the plaintext sums of gradients per bucket.", "quantifier": "all gradients, bucket assignments and nodes", "why_tests_cant": "quantifies over assignments of samples to buckets", "anchors": ["mplang/libs/ml/sgb.py:fhe_histogram_optimized,_build_packed_mask_jit,fhe_encrypt_gh"]}
{"id": "C66", "title": "rotate-and-sum tolerates irrelevant data beyond k", "statement": "As its docstring says, rotate_and_sum(ct, k) leaves the sum of the first k slots in slot 0 whatever the slots beyond k hold.", "quantifier": "all slot vectors, all k", "why_tests_cant": "k and the slot contents are unbounded", "anchors": ["mplang/libs/mpc/analytics/aggregation.py:rotate_and_sum"]}
{"id": "C67", "title": "while_loop keeps parties in step", "statement": "simp.while_loop synchronizes across parties: every party runs the loop body the same number of times, or an error is reported; no party waits for a party that has left the loop.", "quantifier": "all programs, loop states and world sizes", "why_tests_cant": "parties' local conditions and iteration counts are unbounded", "anchors": ["mplang/dialects/simp.py:while_loop", "mplang/backends/simp_worker/ops.py:_while_loop_worker_impl"]}
{"id": "C68", "title": "while_loop honours its condition", "statement": "simp.while_loop returns the state after cond_fn evaluates to False, for every cond_fn the tracer accepts (including one returning a Python constant).", "quantifier": "all accepted loops", "why_tests_cant": "all loop bodies and states", "anchors": ["mplang/dialects/simp.py:_while_loop_trace", "mplang/backends/simp_worker/ops.py:_while_loop_worker_impl"]}
{"id": "C69", "title": "which SPU clusters deal shares to their ranks", "statement": "The share an SPU member is dealt by put is the one belonging to its rank inside the SPU runtime exactly if the cluster lists the members in increasing rank order.", "quantifier": "all member lists", "why_tests_cant": "depends on the order of members in the cluster description", "anchors": ["mplang/libs/device/api.py:_d2d", "mplang/backends/spu_impl.py", "mplang/backends/spu_state.py"]}
{"id": "C70", "title": "a TEE session belongs to the current context", "statement": "The session keys used for a PPU-TEE transfer were established in the context that performs the transfer.", "quantifier": "all histories of contexts and transfers", "why_tests_cant": "object addresses are reused by the allocator", "anchors": ["mplang/libs/device/api.py:_ensure_tee_session"]}
{"id": "C71", "title": "the world size is the least one for the listed parties", "statement": "required_world_size of a compiled program is the least number larger than every party in a parties attribute of its operations.", "quantifier": "all traced programs", "why_tests_cant": "graphs and party sets are unbounded", "anchors": ["mplang/tool/program.py:_compute_required_world_size,_collect_parties"]}
{"id": "C72", "title": "static tensor types describe the run-time tensors", "statement": "For every accepted program of tensor dialect operations (reshape, transpose, slice, concat, gather, elementwise), each run-time value has exactly the shape its traced static type announces, a dynamic dimension (-1) standing for any size.", "quantifier": "all accepted programs, all input tensors of the announced types", "why_tests_cant": "programs, shapes and index tensors are unbounded", "anchors": ["mplang/dialects/tensor.py", "mplang/backends/tensor_impl.py"]}
{"id": "C73", "title": "accepted tensor programs run without shape errors", "statement": "A tensor-dialect program over fully static shapes that the tracer accepts never fails at run time because of shapes: the only errors are an index out of range in gather, an exception of the function given to elementwise, and the unimplemented scatter; without these it always returns.", "quantifier": "all accepted programs over static shapes", "why_tests_cant": "programs and shapes are unbounded", "anchors": ["mplang/dialects/tensor.py", "mplang/backends/tensor_impl.py"]}
{"id": "C74", "title": "tensor.elementwise applies the function at every index", "statement": "tensor.elementwise(f, x, y, ...) of operands accepted with static shapes, or whose run-time shapes are equal, returns the tensor of that shape whose element at every index is f of the operands' elements at that index, scalars being broadcast; the only error is one raised by f.", "quantifier": "all functions, all input tensors accepted by the tracer", "why_tests_cant": "quantifies over shapes, indices and functions", "anchors": ["mplang/dialects/tensor.py:elementwise", "mplang/backends/tensor_impl.py:elementwise_impl"]}
{"id": "C75", "title": "tensor.constant delivers the array it was given", "statement": "Evaluating the object returned by tensor.constant(x) yields an array with the dtype, shape and elements of x, however many constants the program creates, for non-empty arrays of the fourteen standard dtypes in native byte order; equal constants share one object, different ones do not.", "quantifier": "all arrays and all sequences of constants in one tracer", "why_tests_cant": "all dtypes, byte orders, shapes, bit patterns and orders of calls", "anchors": ["mplang/dialects/tensor.py:constant,_constant_trace", "mplang/backends/tensor_impl.py:constant_impl", "mplang/dialects/dtypes.py:from_dtype,to_jax"]}
{"id": "C76", "title": "curve expressions compute the group element", "statement": "Whatever finite point an expression of ec_generator, ec_mul, ec_add, ec_sub and the bytes round trip evaluates to, it is the point the expression denotes; and every expression in which no two finite points cancel and only finite points are turned into bytes evaluates.", "quantifier": "all expressions, all scalars", "why_tests_cant": "expressions and scalars are unbounded; the failing ones cancel", "anchors": ["mplang/backends/crypto_impl.py:mul_impl,add_impl,sub_impl,point_to_bytes_impl,bytes_to_point_impl"]}
{"id": "C77", "title": "symmetric decryption inverts encryption and accepts nothing else", "statement": "sym_decrypt returns the value given to sym_encrypt with the same key (in canonical form), in whatever form the key is given; any ciphertext that is not an encryption under that key is refused.", "quantifier": "all values, keys, nonces and byte strings offered as ciphertexts", "why_tests_cant": "quantifies over all values and all forged ciphertexts", "anchors": ["mplang/backends/crypto_impl.py:sym_encrypt_impl,sym_decrypt_impl", "mplang/dialects/crypto.py:_sym_decrypt_ae"]}
{"id": "C78", "title": "hashes are functions of the tensor's content", "statement": "crypto.hash_bytes of a numeric tensor depends only on its bytes, and differs for different bytes (hash without collisions); row i of hash_batch is the digest of row i, for every number of batch dimensions.", "quantifier": "all tensors, shapes and parties", "why_tests_cant": "all contents and memory layouts", "anchors": ["mplang/backends/crypto_impl.py:hash_impl,hash_batch_impl", "mplang/backends/tensor_impl.py:elementwise_impl"]}
{"id": "C79", "title": "key agreement gives both sides the same usable key", "statement": "After the attested key exchange the sender and the TEE hold the same session key, and each decrypts whatever the other encrypted; an attestation quote survives its byte encoding.", "quantifier": "all key pairs, values, suites and algorithm names", "why_tests_cant": "all keys and messages", "anchors": ["mplang/libs/device/api.py:_ensure_tee_session", "mplang/backends/crypto_impl.py:kem_keygen_impl,kem_derive_impl,hkdf_impl", "mplang/backends/tee_impl.py:MockQuoteValue,_attest_impl"]}
{"id": "C80", "title": "homomorphic arithmetic computes modulo n", "statement": "For every expression of phe.encrypt_auto, phe.add and phe.mul_plain over numbers, running it succeeds and decrypting the result gives the integer computed on the fixed-point representations modulo the key's modulus; ill-formed operations (two plaintexts, products of ciphertexts, unencoded operands, different schemes) are rejected.", "quantifier": "all expressions, inputs, encoders, keys", "why_tests_cant": "expressions and inputs are unbounded; sign and scale errors appear only after decoding", "anchors": ["mplang/dialects/phe.py", "mplang/backends/phe_impl.py", "mplang/backends/tensor_impl.py:elementwise_impl"]}
{"id": "C81", "title": "a PHE public key only encrypts", "statement": "Whoever holds only the public key of phe.keygen (or ciphertexts made with it) can encrypt and compute but not decrypt; operations mixing two key pairs are rejected; every documented scheme can be generated.", "quantifier": "all keys, messages, schemes", "why_tests_cant": "quantifies over all keys and messages", "anchors": ["mplang/backends/phe_impl.py:keygen_impl,WrappedCiphertext", "mplang/dialects/phe.py:keygen"]}
{"id": "C82", "title": "func.call of func.func(f) is f", "statement": "Inside a traced program, func.call(func.func(f, *args), *args) in the tracer that defined it computes f(*args) for functions that use no outer objects, and for functions that do when their values are passed as extra arguments.", "quantifier": "all functions, arguments, captures and calling contexts", "why_tests_cant": "functions and nestings are unbounded", "anchors": ["mplang/dialects/func.py", "mplang/backends/func_impl.py"]}
{"id": "C83", "title": "eager execution equals compiled execution", "statement": "Running a program statement by statement inside an interpreter gives the same results as compiling it and evaluating the compiled program, if every statement returns something; otherwise the values still agree whenever both runs complete.", "quantifier": "all programs and inputs", "why_tests_cant": "programs are unbounded", "anchors": ["mplang/runtime/interpreter.py:Interpreter.bind_primitive", "mplang/edsl/tracer.py:trace"]}
{"id": "C84", "title": "lifting traced objects is stable", "statement": "Lifting traced objects into an interpreter leaves the graph as it was; a value once lifted never changes; the results of one operation come from a single execution; if operations are deterministic all lifted values are those of one evaluation of the graph; objects of another interpreter are refused.", "quantifier": "all traced graphs and all histories of lifts", "why_tests_cant": "histories are unbounded; random operations differ per run", "anchors": ["mplang/runtime/interpreter.py:Interpreter.lift"]}
{"id": "C85", "title": "SecureBoost prediction follows the tree", "statement": "Federated prediction (predict_tree, the model's predict) gives every sample the value of the leaf reached by going down the tree, at each node comparing the owner party's feature with its threshold; the ensemble's logit is the initial one plus the learning rate times these values.", "quantifier": "all trees, depths, numbers of parties and samples", "why_tests_cant": "trees, parties and samples are unbounded", "anchors": ["mplang/libs/ml/sgb.py:predict_tree,predict_tree_single_party,predict_ensemble"]}
{"id": "C86", "title": "SecureBoost training and prediction agree", "statement": "A SecureBoost model of the active party alone puts every training sample, when predicting, at the node training put it in, and its leaf value is the regularised weight of the training samples in that leaf.", "quantifier": "all data sets, parties, parameters, depths", "why_tests_cant": "data, bins and tree shapes are unbounded; the failing cases depend on which threshold wins", "anchors": ["mplang/libs/ml/sgb.py:build_tree,_update_tree_state,build_bins_equi_width,compute_bin_indices,compute_leaf_values"]}
{"id": "C87", "title": "SecureBoost splits at the best gain", "statement": "Every node is split at the feature and boundary, over all parties, with the largest regularised gain over the node's samples, with both children at least min_child_weight, and only if that gain is positive.", "quantifier": "all data sets, parties, parameters, nodes", "why_tests_cant": "the optimum ranges over all features and thresholds of unbounded data", "anchors": ["mplang/libs/ml/sgb.py:compute_best_split_from_hist,_find_splits_ap,_find_splits_pps,_process_decrypted_jit,decrypt_histogram_results"]}
{"id": "C88", "title": "histogram subtraction is exact", "statement": "The histograms a passive party gets for right children as parent minus left equal the histograms of the right children's samples computed directly, at every reachable node of every level.", "quantifier": "all data sets, parties, levels and nodes", "why_tests_cant": "levels are unbounded and an error would propagate down the tree", "anchors": ["mplang/libs/ml/sgb.py:_find_splits_pps,build_tree"]}
{"id": "C89", "title": "one-hot column accessors agree", "statement": "For one-hot Arrow columns, item access, as_py, to_pylist and to_numpy give the same vector for every row, the one the row denotes; one_hot builds the indicator of every element.", "quantifier": "all columns, rows, vector sizes, index values", "why_tests_cant": "columns and indices are unbounded; the failing rows are null or repeat an index", "anchors": ["mplang/extend/arrow/vector.py", "mplang/extend/arrow/compute.py:one_hot"]}
{"id": "C90", "title": "a table with vector columns becomes the matrix of its features", "statement": "table_to_numpy / table2tensor of a table with n rows, without null rows in dense columns and with well-formed sparse rows, is an n-row matrix whose row i is the concatenation of the features of row i of every column, in column order.", "quantifier": "all tables, columns of any kind, null rows", "why_tests_cant": "tables are unbounded; misalignment needs null rows", "anchors": ["mplang/extend/arrow/vector.py:table_to_numpy", "mplang/backends/table_impl.py:table2tensor_impl"]}
{"id": "C91", "title": "vector column types are recovered from their metadata", "statement": "Every vector column type that can be constructed is recovered from its storage type and serialised metadata; type equality compares all parameters.", "quantifier": "all vector types and parameters", "why_tests_cant": "quantifies over all constructible types; registration happens once at import and its failure is silent", "anchors": ["mplang/extend/arrow/vector.py:DenseVectorType,SparseVectorType,OneHotVectorType,_register_vector_types"]}
{"id": "C92", "title": "operations go to the innermost active context", "statement": "In one thread, inside a with-block, a trace or an evaluate call every primitive is executed (or recorded) by the innermost enclosing context; leaving the block, normally or by an exception, restores the previous one; one default context serves everything outside. With any number of threads the stack of contexts is restored in the end.", "quantifier": "all programs of nested blocks, exceptions and lookups; all threads and interleavings", "why_tests_cant": "nestings, exceptions and interleavings are unbounded", "anchors": ["mplang/edsl/context.py", "mplang/edsl/primitive.py:Primitive.bind", "mplang/__init__.py:evaluate,fetch,_get_context", "mplang/edsl/tracer.py:Tracer.run"]}
{"id": "C93", "title": "table files of different names are separate", "statement": "In histories in which no two parties use the same relative file name and no used name exists in the working directory: table.read gives the party's file as it was at the time of the read; table.write makes the party's file exactly the written content, or raises, because the file has other content, and leaves it unchanged; no other operation changes a file.", "quantifier": "all histories of reads, writes and uses of read values, all parties and file names", "why_tests_cant": "histories are unbounded; the failing ones need reads and writes of one name by two parties or across symbolic links", "anchors": ["mplang/backends/table_impl.py:read_impl,write_impl,FileTableSource", "mplang/runtime/object_store.py:FileSystemBackend.download,FileSystemBackend.upload"]}
{"id": "C94", "title": "tensors and tables convert into each other", "statement": "table.table2tensor and table.tensor2table are inverse on tensors of Arrow's types and tables without nulls of one column type; what table2tensor returns has the declared dtype and number of rows and the table's cells.", "quantifier": "all tensors, tables, column names and declared types", "why_tests_cant": "tables and tensors are unbounded; the failing cases need complex types, nulls or unverified schemas", "anchors": ["mplang/dialects/table.py:table2tensor,tensor2table,_table2tensor_ae,_tensor2table_ae", "mplang/backends/table_impl.py:table2tensor_impl,tensor2table_impl"]}
{"id": "C95", "title": "schemas of homogeneous table constants", "statement": "The static schema of table.constant is the schema of the table built at run time exactly for columns of homogeneous non-empty lists; the cells are then the given ones.", "quantifier": "all dicts of Python lists", "why_tests_cant": "lists are unbounded; pandas and Arrow infer types differently only for lists with None, empty lists or mixed kinds", "anchors": ["mplang/dialects/table.py:_constant_ae", "mplang/backends/table_impl.py:constant_impl", "mplang/dialects/dtypes.py:from_pandas,from_arrow"]}
{"id": "C96", "title": "run_sql computes its query over the tables it is given", "statement": "What a user sees of the result of table.run_sql is the query applied to the tables passed to it by name, whatever other queries, reads and fetches happen before or in between, as long as no two table names differ in case only and queries read only names they were given; if every name is used for one query only, nothing raises.", "quantifier": "all histories of queries, tables, names and reads; all queries", "why_tests_cant": "histories are unbounded; results are lazy and share DuckDB connections, so errors need particular chains of queries", "anchors": ["mplang/backends/table_impl.py:run_sql_impl,DuckDBState,QueryTableSource,TableValue.data"]}
{"id": "C97", "title": "which table files can be read back", "statement": "With default options table.write and table.read use the same file format exactly for paths without csv or json extension; a written file can be read with some accepted format exactly unless it was written as json under a name without json extension.", "quantifier": "all paths and format options", "why_tests_cant": "ranges over all paths", "anchors": ["mplang/backends/table_impl.py:_infer_format,read_impl,write_impl", "mplang/dialects/table.py:read,write,_read_ae,_write_ae"]}
{"id": "C98", "title": "a declared schema is applied exactly", "statement": "Using a file table in SQL gives one column per declared column, in the declared order, cast to the type DuckDB has for the declared one, whatever characters the (non-empty) column names contain; all declared types but f16, date and time come back as declared; declared columns the file lacks are refused.", "quantifier": "all schemas and column names", "why_tests_cant": "column names are arbitrary text; injection needs particular characters", "anchors": ["mplang/backends/table_impl.py:FileTableSource.register,_quote_identifier,_duckdb_type_name,_pa_schema"]}
{"id": "C99", "title": "run_jax returns the function of its arguments", "statement": "With jax_enable_x64 on: tensor.run_jax(f, ...) over known shapes returns what f returns on the arguments, each converted to the dtype its type declares, whichever arguments f ignores, and refuses an argument f reads that lacks its declared shape; with unknown dimensions it returns what f returns exactly if the arguments have their declared dtypes, none is complex and all unknown dimensions have one size of at least 1, else it raises; with symbolic_shapes exactly if the arguments are an instance of the exported types.", "quantifier": "all functions, argument types, arrays, sizes and settings of jax_enable_x64", "why_tests_cant": "functions and arrays are unbounded; the tests switch on jax_enable_x64 and use one size", "anchors": ["mplang/dialects/_jax_utils.py:compile_jax,_make_placeholders,_get_symbolic_name", "mplang/dialects/tensor.py:_run_jax_trace", "mplang/backends/tensor_impl.py:_run_jax_with_xla,TensorValue.as_jax", "mplang/backends/util.py:_refine_stablehlo,_make_tensor_type"]}
{"id": "C100", "title": "the compile caches of run_jax are transparent", "statement": "Whatever calls happened before, in this or earlier processes, and wherever saving an executable failed or the process died while saving, run_jax returns what it returns with empty caches, as long as the cache directory can be created.", "quantifier": "all histories of calls, failures, crashes, restarts and removed files", "why_tests_cant": "histories and crash points are unbounded", "anchors": ["mplang/backends/tensor_impl.py:_run_jax_with_xla,_XLA_CACHE"]}
{"id": "C101", "title": "which SPU executions are connected", "statement": "The SPU execution of a request at a worker uses the link of the device's parties numbered by how many other requests on the device reached this worker before; so the executions of two requests at two workers are connected exactly if they reached both workers at the same place; if all workers see one order, every execution is connected to the same request at the other workers and to no other.", "quantifier": "all histories of requests at every worker, all arrival orders, failures, devices and link configurations", "why_tests_cant": "the number and the orders of requests are unbounded; misconnection needs two requests racing or one failing at one party", "anchors": ["mplang/backends/spu_state.py:SPUState.get_or_create,SPUState._get_template_link", "mplang/backends/simp_worker/infra.py:WorkerInfra", "mplang/backends/simp_worker/request.py", "mplang/backends/channel.py"]}
{"id": "C102", "title": "SPU options survive transport", "statement": "The workers run the SPU with every link option the sender set and their own for the others, unless a text option is the empty text; runtime options arrive unchanged; exactly the configurations without an empty link description and without empty text options are equal after to_json and from_json.", "quantifier": "all configurations and link descriptions", "why_tests_cant": "configurations are unbounded; the failing ones contain empty values", "anchors": ["mplang/dialects/spu.py:SPUConfig.to_json,SPUConfig.from_json,SPULinkDesc.to_json,SPULinkDesc.from_dict", "mplang/backends/spu_state.py:SPUState._effective_brpc_config"]}
{"id": "C103", "title": "SPU options are read from their documented places", "statement": "SPUConfig.from_dict takes every runtime option from the runtime_config section, else from the top level, else the documented default; flags are booleans or the words true/false in any case; link options may be given by full or short name, the full name winning; anything else is refused.", "quantifier": "all configuration dictionaries", "why_tests_cant": "dictionaries are unbounded", "anchors": ["mplang/dialects/spu.py:SPUConfig.from_dict,SPULinkDesc.from_dict,_parse_bool"]}
{"id": "C104", "title": "requests with different job ids are isolated", "statement": "When the requests of a cluster have different job ids, what a computation receives from its peers is what the peers sent in that same computation, whatever other requests run before or at the same time, fail, lose messages or time out; without job ids the same holds when requests are posted one at a time and leave no unread message.", "quantifier": "all histories of requests at all workers: all interleavings, failures, losses, late deliveries, timeouts", "why_tests_cant": "histories are unbounded; tests run successful requests one at a time", "anchors": ["mplang/backends/simp_driver/ops.py:_generic_simp_dispatch", "mplang/backends/simp_driver/http.py:SimpHttpDriver.submit", "mplang/backends/simp_worker/http.py:_do_execute,HttpCommunicator", "mplang/backends/simp_worker/request.py:create_request_interpreter", "mplang/backends/simp_driver/mem.py:SimpMemDriver.collect"]}
{"id": "C105", "title": "driver and workers agree on addresses", "statement": "For command lines that give the endpoints from one source, with endpoint texts that start with a scheme or not with http, the URLs the driver uses are the URLs the workers use for each other, one per worker, and worker i listens on the port in URL i.", "quantifier": "all command lines, configuration files and endpoint texts", "why_tests_cant": "texts are arbitrary; disagreement needs options and files combined, host names starting with http or missing options", "anchors": ["mplang/cli.py:build_endpoints,normalize_endpoint,cmd_run,cmd_up,cmd_worker,cmd_objects", "mplang/backends/simp_driver/http.py:SimpHttpDriver", "mplang/libs/device/cluster.py:ClusterSpec.from_dict,ClusterSpec.endpoints"]}
{"id": "C106", "title": "each worker has its own SPU address", "statement": "For endpoints written host:port in a configuration with an SPU device, the SPU address of worker i is on the host of worker i at the base port plus i, and no two workers have the same.", "quantifier": "all configuration files, endpoint texts and options", "why_tests_cant": "texts are arbitrary; clashes need particular ports", "anchors": ["mplang/cli.py:build_endpoints,add_cluster_args"]}
{"id": "C107", "title": "native OKVS decode inverts native OKVS solve", "statement": "With the native kernels, field.decode_okvs(keys, field.solve_okvs(keys, values, m)) returns exactly values.", "quantifier": "all key lists (including duplicates), values, table sizes m, seeds, and all hash functions into [0,m)^3", "why_tests_cant": "success depends on the hypergraph; the invariant must hold for every peeling order", "anchors": ["mplang/kernels/py_kernels.py:okvs_solve,okvs_decode,_hash_key_py", "mplang/kernels/okvs.cpp:solve_okvs,decode_okvs"]}
{"id": "C108", "title": "native OKVS solve reports failure", "statement": "With the native kernels, if the keys cannot all be peeled the caller of solve_okvs gets an error rather than a store that decodes to something else.", "quantifier": "all key lists, sizes and seeds, both kernels", "why_tests_cant": "failing instances have negligible probability under random tests", "anchors": ["mplang/kernels/py_kernels.py:okvs_solve", "mplang/kernels/okvs.cpp:solve_okvs"]}
{"id": "C109", "title": "Gilboa VOLE correlation with the native kernels", "statement": "With the native kernels, the outputs of the Gilboa VOLE protocol satisfy w = v xor u*Delta in GF(2^128) at every index.", "quantifier": "all u, Delta, masks, lengths", "why_tests_cant": "correlation is an algebraic identity over 2^128 elements", "anchors": ["mplang/libs/mpc/vole/gilboa.py"]}
{"id": "C110", "title": "silent VOLE correlation with the native kernels", "statement": "With the native kernels, silent VOLE expansion yields outputs satisfying w = v xor u*Delta in GF(2^128) at every index.", "quantifier": "all base correlations, code matrices and expansion lengths", "why_tests_cant": "identity over all inputs", "anchors": ["mplang/libs/mpc/ot/silent.py"]}
{"id": "C111", "title": "PSI marks exactly the intersection", "statement": "In RR22 PSI, with either kernels, exactly the items held by both parties are marked.", "quantifier": "all key sets, OKVS stores, VOLE correlations", "why_tests_cant": "quantifies over sets and randomness", "anchors": ["mplang/libs/mpc/psi/rr22.py"]}
{"id": "C112", "title": "OPRF evaluation of a single item", "statement": "The sender can evaluate the OPRF on a single item with its key.", "quantifier": "all items, seeds, base OT choices", "why_tests_cant": "cryptographic identity over all randomness", "anchors": ["mplang/libs/mpc/psi/oprf.py"]}
{"id": "C113", "title": "private group-by sum over the network", "statement": "oblivious_groupby_sum_bfv between parties in different processes returns every group sum.", "quantifier": "all data, group ids, masks, permutations", "why_tests_cant": "quantifies over data and masks", "anchors": ["mplang/libs/mpc/analytics/groupby.py"]}
{"id": "C114", "title": "truncated containers raise ValueError", "statement": "As documented, every truncation of a valid container raises ValueError.", "quantifier": "all values, all byte strings", "why_tests_cant": "truncation points and lengths are unbounded", "anchors": ["mplang/edsl/serde.py:dumps_binary,loads_binary"]}
{"id": "C115", "title": "operations use values defined before them", "statement": "Any sequence of Graph calls keeps every operation's inputs defined before it.", "quantifier": "all operation histories", "why_tests_cant": "histories are unbounded", "anchors": ["mplang/edsl/graph.py"]}
{"id": "C116", "title": "graph JSON round trip after add_value", "statement": "The JSON round trip is also exact for graphs on which the public add_value was called between operations.", "quantifier": "all graphs, including nested regions", "why_tests_cant": "graphs are unbounded, names arbitrary", "anchors": ["mplang/edsl/graph.py:Graph.to_json,Graph.from_json"]}
{"id": "C117", "title": "peers derive the same message key", "statement": "Sender and receiver derive the same transport key for the same logical message.", "quantifier": "all call histories", "why_tests_cant": "requires all histories of sends and receives", "anchors": ["mplang/backends/simp_worker/comm_context.py"]}
{"id": "C118", "title": "object store is a map", "statement": "Every outcome of every ObjectStore call (put, get, delete, exists) is that of a finite map from URI to object.", "quantifier": "all operation histories, keys and objects", "why_tests_cant": "unbounded histories", "anchors": ["mplang/runtime/object_store.py"]}
{"id": "C119", "title": "party typing is exact", "statement": "Exactly the parties in the static party set of a value hold it at run time, and every party that executes a pcall holds every argument.", "quantifier": "all argument party sets and masks", "why_tests_cant": "all combinations of static/dynamic masks", "anchors": ["mplang/dialects/simp.py:_deduce_parties,_pcall_static_trace", "mplang/backends/simp_worker/ops.py"]}
{"id": "C120", "title": "hand-built cluster specifications survive serialisation", "statement": "Every ClusterSpec the constructor accepts survives to_dict/from_dict unchanged.", "quantifier": "all configurations", "why_tests_cant": "unbounded configurations", "anchors": ["mplang/libs/device/cluster.py"]}
{"id": "C121", "title": "in-memory SPU links are used only by their own parties", "statement": "With in-memory links, two SPU devices with different party sets never share a link at any rank.", "quantifier": "all pairs of SPU devices", "why_tests_cant": "cache collisions depend on two devices with same local rank/size", "anchors": ["mplang/backends/spu_state.py"]}
{"id": "C122", "title": "cancelled and timed out requests can be recognised", "statement": "A cancelled request never looks successful, an operation's own TimeoutError can be told from an expired wait, and the status is monotone for every exception.", "quantifier": "all event interleavings", "why_tests_cant": "unbounded interleavings", "anchors": ["mplang/backends/simp_worker/base.py"]}
{"id": "C123", "title": "job ids identify jobs", "statement": "Job ids identify jobs uniquely among unfinished jobs.", "quantifier": "all request histories", "why_tests_cant": "unbounded histories", "anchors": ["mplang/backends/simp_worker/http.py"]}
{"id": "C124", "title": "program artifacts are exact and tamper proof", "statement": "pack/unpack of a compiled program is the identity and every modification of a packed program is detected.", "quantifier": "all programs and tampered payloads", "why_tests_cant": "unbounded graphs", "anchors": ["mplang/tool/program.py", "mplang/edsl/program.py"]}
{"id": "C125", "title": "different graphs have different execution keys", "statement": "Graphs that differ in more than names get different canonical encodings, hence different execution keys (up to hash collisions).", "quantifier": "all graphs and renamings", "why_tests_cant": "unbounded graphs", "anchors": ["mplang/backends/simp_worker/ops.py", "mplang/runtime/interpreter.py:_graph_exec_key"]}
{"id": "C126", "title": "a failed JSON write leaves no partial file", "statement": "Writing a table as JSON either returns and the file holds all rows, or raises and leaves no file of partial rows; empty tables can be written.", "quantifier": "all tables, chunkings, formats and failure points", "why_tests_cant": "every row position at which reading can fail", "anchors": ["mplang/backends/table_impl.py:write_impl,MultiTableReader"]}
{"id": "C127", "title": "the shuffle helper learns only bin sizes", "statement": "As documented, the helper of oblivious_groupby_sum_shuffle learns nothing but the bin sizes.", "quantifier": "all data vectors, masks and bins", "why_tests_cant": "a statement about distributions of views over all masks", "anchors": ["mplang/libs/mpc/analytics/groupby.py:oblivious_groupby_sum_shuffle"]}
{"id": "C128", "title": "every tensor operation can be run", "statement": "Every operation of the tensor dialect that the tracer accepts has an implementation.", "quantifier": "all accepted programs over static shapes", "why_tests_cant": "programs and shapes are unbounded", "anchors": ["mplang/dialects/tensor.py", "mplang/backends/tensor_impl.py"]}
{"id": "C129", "title": "tensor.elementwise with dynamic shapes", "statement": "tensor.elementwise of operands with unknown dimensions applies f at every index or refuses operands whose run-time shapes differ.", "quantifier": "all functions, all input tensors accepted by the tracer", "why_tests_cant": "quantifies over shapes, indices and functions", "anchors": ["mplang/dialects/tensor.py:elementwise", "mplang/backends/tensor_impl.py:elementwise_impl"]}
{"id": "C130", "title": "sym_decrypt checks the announced type", "statement": "The value sym_decrypt returns has the type announced by target_type, which is the static type of the result.", "quantifier": "all values, keys, nonces and byte strings offered as ciphertexts", "why_tests_cant": "quantifies over all values and all forged ciphertexts", "anchors": ["mplang/backends/crypto_impl.py:sym_encrypt_impl,sym_decrypt_impl", "mplang/dialects/crypto.py:_sym_decrypt_ae"]}
{"id": "C131", "title": "hashing of tensors of objects", "statement": "crypto.hash_bytes of two equal tensors gives equal digests also for tensors of dtype object, such as the results of tensor.elementwise.", "quantifier": "all tensors, shapes and parties", "why_tests_cant": "all contents and memory layouts", "anchors": ["mplang/backends/crypto_impl.py:hash_impl,hash_batch_impl", "mplang/backends/tensor_impl.py:elementwise_impl"]}
{"id": "C132", "title": "session keys separate directions, suites and algorithms", "statement": "A received ciphertext comes from the other side; kem_keygen makes keys of the requested suite; every hash algorithm hkdf accepts works.", "quantifier": "all key pairs, values, suites and algorithm names", "why_tests_cant": "all keys and messages", "anchors": ["mplang/libs/device/api.py:_ensure_tee_session", "mplang/backends/crypto_impl.py:kem_keygen_impl,kem_derive_impl,hkdf_impl", "mplang/backends/tee_impl.py:MockQuoteValue,_attest_impl"]}
{"id": "C133", "title": "homomorphic arithmetic decodes to the computed numbers", "statement": "decrypt_auto of a PHE expression is the number computed in the clear up to the precision of the encoder, for scalars and tensors, sums and products, positive and negative; the encoder's max_value is enforced and its dtype restored.", "quantifier": "all expressions, inputs, encoders, keys", "why_tests_cant": "expressions and inputs are unbounded; sign and scale errors appear only after decoding", "anchors": ["mplang/dialects/phe.py", "mplang/backends/phe_impl.py", "mplang/backends/tensor_impl.py:elementwise_impl"]}
{"id": "C134", "title": "fetched traced objects come from one execution", "statement": "All values lifted from one trace come from a single execution of it, also objects traced below parameters and random operations.", "quantifier": "all traced graphs and all histories of lifts", "why_tests_cant": "histories are unbounded; random operations differ per run", "anchors": ["mplang/runtime/interpreter.py:Interpreter.lift"]}
{"id": "C135", "title": "federated SecureBoost training and prediction agree", "statement": "With passive parties too, predicting a training sample reaches the node that training put it in, and its leaf value is the regularised weight of the training samples in that leaf.", "quantifier": "all data sets, parties, parameters, depths", "why_tests_cant": "data, bins and tree shapes are unbounded; the failing cases depend on which threshold wins", "anchors": ["mplang/libs/ml/sgb.py:build_tree,_update_tree_state,build_bins_equi_width,compute_bin_indices,compute_leaf_values"]}
{"id": "C136", "title": "dense and sparse vector column accessors agree", "statement": "For dense and sparse Arrow columns too all accessors give the vector the row denotes, and the registered one_hot compute functions build indicators.", "quantifier": "all columns, rows, vector sizes, index values", "why_tests_cant": "columns and indices are unbounded; the failing rows are null or repeat an index", "anchors": ["mplang/extend/arrow/vector.py", "mplang/extend/arrow/compute.py:one_hot"]}
{"id": "C137", "title": "vector columns survive transport", "statement": "Tables with vector columns sent between parties (Arrow IPC) keep their column types.", "quantifier": "all vector types and parameters", "why_tests_cant": "quantifies over all constructible types; registration happens once at import and its failure is silent", "anchors": ["mplang/extend/arrow/vector.py:DenseVectorType,SparseVectorType,OneHotVectorType,_register_vector_types"]}
{"id": "C138", "title": "contexts of threads are isolated", "statement": "Threads working in different contexts do not affect each other.", "quantifier": "all programs of nested blocks, exceptions and lookups; all threads and interleavings", "why_tests_cant": "nestings, exceptions and interleavings are unbounded", "anchors": ["mplang/edsl/context.py", "mplang/edsl/primitive.py:Primitive.bind", "mplang/__init__.py:evaluate,fetch,_get_context", "mplang/edsl/tracer.py:Tracer.run"]}
{"id": "C139", "title": "accepted conversions between tensors and tables succeed", "statement": "A conversion between tensor and table accepted when tracing succeeds at run time and gives the static shape.", "quantifier": "all tensors, tables, column names and declared types", "why_tests_cant": "tables and tensors are unbounded; the failing cases need complex types, nulls or unverified schemas", "anchors": ["mplang/dialects/table.py:table2tensor,tensor2table,_table2tensor_ae,_tensor2table_ae", "mplang/backends/table_impl.py:table2tensor_impl,tensor2table_impl"]}
{"id": "C140", "title": "every declared type is applied", "statement": "Using a file table in SQL gives exactly the declared types for every schema table.read accepts.", "quantifier": "all schemas and column names", "why_tests_cant": "column names are arbitrary text; injection needs particular characters", "anchors": ["mplang/backends/table_impl.py:FileTableSource.register,_quote_identifier,_duckdb_type_name,_pa_schema"]}
{"id": "C141", "title": "every SPU configuration survives transport", "statement": "An SPUConfig written with to_json and read with from_json is the same configuration, for all configurations.", "quantifier": "all configurations and link descriptions", "why_tests_cant": "configurations are unbounded; the failing ones contain empty values", "anchors": ["mplang/dialects/spu.py:SPUConfig.to_json,SPUConfig.from_json,SPULinkDesc.to_json,SPULinkDesc.from_dict", "mplang/backends/spu_state.py:SPUState._effective_brpc_config"]}
{"id": "C142", "title": "a request is not disturbed by other requests", "statement": "What a computation started by the shipped driver receives from its peers is what the peers sent in that same computation: earlier computations, whether they succeeded or failed, and concurrent ones of other clients have no influence on it.", "quantifier": "all histories of requests at all workers: all interleavings, failures, losses, late deliveries, timeouts", "why_tests_cant": "histories are unbounded; tests run successful requests one at a time", "anchors": ["mplang/backends/simp_driver/ops.py:_generic_simp_dispatch", "mplang/backends/simp_driver/http.py:SimpHttpDriver.submit", "mplang/backends/simp_worker/http.py:_do_execute,HttpCommunicator", "mplang/backends/simp_worker/request.py:create_request_interpreter", "mplang/backends/simp_driver/mem.py:SimpMemDriver.collect"]}
{"id": "C143", "title": "the commands find the workers with the same options", "statement": "With the same command line options, run and objects address the workers started by up or worker.", "quantifier": "all command lines, configuration files and endpoint texts", "why_tests_cant": "texts are arbitrary; disagreement needs options and files combined, host names starting with http or missing options", "anchors": ["mplang/cli.py:build_endpoints,normalize_endpoint,cmd_run,cmd_up,cmd_worker,cmd_objects", "mplang/backends/simp_driver/http.py:SimpHttpDriver", "mplang/libs/device/cluster.py:ClusterSpec.from_dict,ClusterSpec.endpoints"]}
{"id": "C144", "title": "SPU addresses obey options and do not clash", "statement": "The command line options for SPU addresses are obeyed, endpoints may be written with a scheme, and no SPU address is the HTTP address of a worker.", "quantifier": "all configuration files, endpoint texts and options", "why_tests_cant": "texts are arbitrary; clashes need particular ports", "anchors": ["mplang/cli.py:build_endpoints,add_cluster_args"]}
{"id": "C145", "title": "native and Python field.mul kernels agree", "statement": "field.mul returns the same element whether the native library libmplang_kernels.so is loaded or the Python fallback is used, so parties with and without the library compute the same field.", "quantifier": "all pairs of 128-bit operands", "why_tests_cant": "existing tests compare the native kernel only with itself", "anchors": ["mplang/kernels/gf128.cpp:gf128_mul", "mplang/kernels/py_kernels.py:gf128_mul_single", "mplang/backends/field_impl.py:_gf128_mul_impl"]}
{"id": "C146", "title": "sparse noise positions are distinct", "statement": "generate_sparse_noise(n, weight) returns weight pairwise distinct positions.", "quantifier": "all n, weights and random draws", "why_tests_cant": "collision patterns are random", "anchors": ["mplang/libs/mpc/vole/ldpc.py:generate_sparse_noise"]}
{"id": "C147", "title": "shuffle delivers permutations", "statement": "simp.shuffle_static also delivers routings in which two parties exchange values, such as a swap.", "quantifier": "all routings and schedules", "why_tests_cant": "deadlock appears only in actual multi-party execution of 2-cycles", "anchors": ["mplang/backends/simp_worker/comm_context.py", "mplang/backends/simp_worker/ops.py", "mplang/dialects/simp.py:shuffle_static"]}
{"id": "C148", "title": "file-system keys cannot escape the store root", "statement": "No key accepted by the file-system backend resolves to a path outside the store's root directory.", "quantifier": "all keys and roots", "why_tests_cant": "needs adversarial keys", "anchors": ["mplang/runtime/object_store.py:FileSystemBackend._resolve_key"]}
{"id": "C149", "title": "asynchronous job status is consistent", "statement": "A poller that sees SUCCESS for a job also sees its result.", "quantifier": "all interleavings of poller and worker", "why_tests_cant": "race window of two assignments", "anchors": ["mplang/backends/simp_worker/http.py:_do_execute_async"]}
{"id": "C150", "title": "tracing keeps constants", "statement": "The same holds when branches return different Python constants or the loop condition is one.", "quantifier": "all traced functions with nested branches, loops and closures, all inputs", "why_tests_cant": "branches not taken at trace time, unbounded iteration counts and all placements of constants in branch results", "anchors": ["mplang/dialects/simp.py:uniform_cond,while_loop", "mplang/edsl/tracer.py:Tracer,TracedFunction", "mplang/runtime/interpreter.py:evaluate_graph"]}
{"id": "C151", "title": "a failed put keeps the stored object", "statement": "When put() to an existing fs:// key fails because the new object cannot be serialised, the object stored before is still returned by get().", "quantifier": "all persistent keys already stored, all failing puts", "why_tests_cant": "every failure point of put over every prior history", "anchors": ["mplang/runtime/object_store.py:FileSystemBackend.put,FileSystemBackend.get"]}
{"id": "C152", "title": "a member executes with the share it was dealt", "statement": "The share an SPU member is dealt by put is the one belonging to its rank inside the SPU runtime, however the cluster lists the members.", "quantifier": "all member lists", "why_tests_cant": "depends on the order of members in the cluster description", "anchors": ["mplang/libs/device/api.py:_d2d", "mplang/backends/spu_impl.py", "mplang/backends/spu_state.py"]}
{"id": "C153", "title": "a program's world size covers its parties", "statement": "required_world_size of a compiled program is larger than every party that holds a value or takes part in an operation of the program.", "quantifier": "all traced programs", "why_tests_cant": "graphs and party sets are unbounded", "anchors": ["mplang/tool/program.py:_compute_required_world_size,_collect_parties"]}
{"id": "C154", "title": "tensor.constant delivers every array", "statement": "tensor.constant delivers arrays of every dtype and shape it accepts: byte-swapped dtypes, bfloat16, empty arrays.", "quantifier": "all arrays and all sequences of constants in one tracer", "why_tests_cant": "all dtypes, byte orders, shapes, bit patterns and orders of calls", "anchors": ["mplang/dialects/tensor.py:constant,_constant_trace", "mplang/backends/tensor_impl.py:constant_impl", "mplang/dialects/dtypes.py:from_dtype,to_jax"]}
{"id": "C155", "title": "curve expressions reach the point at infinity", "statement": "Curve expressions also compute the point at infinity and its byte form.", "quantifier": "all expressions, all scalars", "why_tests_cant": "expressions and scalars are unbounded; the failing ones cancel", "anchors": ["mplang/backends/crypto_impl.py:mul_impl,add_impl,sub_impl,point_to_bytes_impl,bytes_to_point_impl"]}
{"id": "C156", "title": "functions may use surrounding objects and be called anywhere", "statement": "func.call of func.func(f) computes f also for functions that use objects of the surrounding program and for calls made from nested contexts.", "quantifier": "all functions, arguments, captures and calling contexts", "why_tests_cant": "functions and nestings are unbounded", "anchors": ["mplang/dialects/func.py", "mplang/backends/func_impl.py"]}
{"id": "C157", "title": "eager execution has the effects of compiled execution", "statement": "Running a program statement by statement also has the same effects, for statements that return nothing.", "quantifier": "all programs and inputs", "why_tests_cant": "programs are unbounded", "anchors": ["mplang/runtime/interpreter.py:Interpreter.bind_primitive", "mplang/edsl/tracer.py:trace"]}
{"id": "C158", "title": "tables with null vectors become matrices", "statement": "Tables with null rows in dense columns are converted row by row or refused.", "quantifier": "all tables, columns of any kind, null rows", "why_tests_cant": "tables are unbounded; misalignment needs null rows", "anchors": ["mplang/extend/arrow/vector.py:table_to_numpy", "mplang/backends/table_impl.py:table2tensor_impl"]}
{"id": "C159", "title": "table files belong to their party", "statement": "The same holds when parties use files of the same name, after reads, and for names in the working directory; a written file can be read back.", "quantifier": "all histories of reads, writes and uses of read values, all parties and file names", "why_tests_cant": "histories are unbounded; the failing ones need reads and writes of one name by two parties or across symbolic links", "anchors": ["mplang/backends/table_impl.py:read_impl,write_impl,FileTableSource", "mplang/runtime/object_store.py:FileSystemBackend.download,FileSystemBackend.upload"]}
{"id": "C160", "title": "table.constant has the schema it announces", "statement": "The static schema of table.constant is the schema of the table built at run time, for all columns.", "quantifier": "all dicts of Python lists", "why_tests_cant": "lists are unbounded; pandas and Arrow infer types differently only for lists with None, empty lists or mixed kinds", "anchors": ["mplang/dialects/table.py:_constant_ae", "mplang/backends/table_impl.py:constant_impl", "mplang/dialects/dtypes.py:from_pandas,from_arrow"]}
{"id": "C161", "title": "run_sql queries do not influence each other", "statement": "The same holds for names that differ in case only; a query cannot read tables it was not given; queries may reuse input names; reading a table does not influence later queries.", "quantifier": "all histories of queries, tables, names and reads; all queries", "why_tests_cant": "histories are unbounded; results are lazy and share DuckDB connections, so errors need particular chains of queries", "anchors": ["mplang/backends/table_impl.py:run_sql_impl,DuckDBState,QueryTableSource,TableValue.data"]}
{"id": "C162", "title": "table files are read in the format they were written", "statement": "A table written with table.write can be read with table.read; with default options both use the same file format.", "quantifier": "all paths and format options", "why_tests_cant": "ranges over all paths", "anchors": ["mplang/backends/table_impl.py:_infer_format,read_impl,write_impl", "mplang/dialects/table.py:read,write,_read_ae,_write_ae"]}
{"id": "C163", "title": "run_jax accepts every argument of the declared type", "statement": "tensor.run_jax works for every size of the unknown dimensions, converts arguments also there, and keeps 64-bit values with JAX's default settings.", "quantifier": "all functions, argument types, arrays, sizes and settings of jax_enable_x64", "why_tests_cant": "functions and arrays are unbounded; the tests switch on jax_enable_x64 and use one size", "anchors": ["mplang/dialects/_jax_utils.py:compile_jax,_make_placeholders,_get_symbolic_name", "mplang/dialects/tensor.py:_run_jax_trace", "mplang/backends/tensor_impl.py:_run_jax_with_xla,TensorValue.as_jax", "mplang/backends/util.py:_refine_stablehlo,_make_tensor_type"]}
{"id": "C164", "title": "concurrent requests on an SPU device are isolated", "statement": "When workers serve several requests that use SPU devices, concurrently or one after another, the SPU execution of a request at one party is connected to the execution of the same request at the other parties and to no other, whatever the order in which the requests reach the workers and whichever requests fail.", "quantifier": "all histories of requests at every worker, all arrival orders, failures, devices and link configurations", "why_tests_cant": "the number and the orders of requests are unbounded; misconnection needs two requests racing or one failing at one party", "anchors": ["mplang/backends/spu_state.py:SPUState.get_or_create,SPUState._get_template_link", "mplang/backends/simp_worker/infra.py:WorkerInfra", "mplang/backends/simp_worker/request.py", "mplang/backends/channel.py"]}
{"id": "C165", "title": "Silver code matrices are valid and sparse", "statement": "For every outcome of the random draws, when generate_silver_ldpc(n, m) returns, its CSR arrays describe m rows over n columns, each row listing between min(3, n) and min(5, n) different columns; encoding any message of n blocks with it succeeds and is the xor of the listed blocks; matrices of at least 50 columns, and so every matrix silver_vole generates, pass verify_ldpc_structure. The loop that tops up short rows can be ended by its next draw.", "quantifier": "all n, m, all draws of the random source, all messages", "why_tests_cant": "the matrix depends on random draws and tests use a few seeds and sizes", "anchors": ["mplang/libs/mpc/vole/ldpc.py:generate_silver_ldpc,get_silver_params,verify_ldpc_structure", "mplang/libs/mpc/vole/silver.py:silver_vole", "mplang/kernels/py_kernels.py:ldpc_encode", "mplang/kernels/ldpc.cpp:ldpc_encode"]}
{"id": "C166", "title": "the dense LDPC encoder is a reference for the sparse one", "statement": "ldpc_encode_dense_jax(message, H) returns the same syndrome as encoding with the sparse form of H.", "quantifier": "all messages of 128-bit blocks and all 0/1 matrices", "why_tests_cant": "tests of the dense encoder are missing; messages are arbitrary", "anchors": ["mplang/libs/mpc/vole/ldpc.py:ldpc_encode_dense_jax,ldpc_encode_sparse"]}
{"id": "C167", "title": "syndrome decoding returns few errors and finds single ones", "statement": "ldpc_decode_syndrome(syndrome, H, w) returns a 0/1 vector with an entry per column of H and at most w ones; a syndrome caused by one error is decoded to that error when its column is not empty and lies in no other column.", "quantifier": "all matrices, syndromes, noise weights", "why_tests_cant": "the greedy choice depends on the whole matrix; tests use a few", "anchors": ["mplang/libs/mpc/vole/ldpc.py:ldpc_decode_syndrome"]}
{"id": "C168", "title": "syndrome decoding explains the syndrome", "statement": "Whenever a syndrome is caused by at most w errors, the vector returned by ldpc_decode_syndrome has that syndrome, for bits and for 128-bit blocks.", "quantifier": "all matrices, error vectors, noise weights", "why_tests_cant": "needs all error patterns", "anchors": ["mplang/libs/mpc/vole/ldpc.py:ldpc_decode_syndrome"]}
{"id": "C169", "title": "expanded seeds are streams", "statement": "field.aes_expand(seeds, len) with the native library returns one row per seed that depends on that seed only, consists of len 128-bit blocks that are all different, extends the rows of shorter expansions, and differs in every block from the row of any other seed.", "quantifier": "all lists of 128-bit seeds, all lengths up to 2^64", "why_tests_cant": "2^128 seeds and unbounded lengths", "anchors": ["mplang/kernels/okvs.cpp:aes_128_expand,aes_key_expand", "mplang/dialects/field.py:aes_expand", "mplang/backends/field_impl.py:_aes_expand_impl_prim"]}
{"id": "C170", "title": "expanded seeds hide the seed", "statement": "field.aes_expand is AES-CTR keyed by the seeds: seeing blocks of an expansion reveals neither the seed nor the other blocks.", "quantifier": "all seeds, lengths and block positions", "why_tests_cant": "a security property over all observers and seeds", "anchors": ["mplang/dialects/field.py:aes_expand", "mplang/kernels/okvs.cpp:aes_128_expand", "mplang/libs/mpc/ot/extension.py:prg_expand"]}
{"id": "C171", "title": "field operations on well-formed arrays read only their arguments", "statement": "field.mul on two arrays of field elements of one shape, field.decode_okvs on n keys and a store of m rows of two words, field.ldpc_encode with a well-formed CSR matrix, and field.aes_expand on seeds of shape (n, 2) uint64 or (n, 16) uint8 return an array of the shape and element type announced when the operation was traced, and the native kernels read nothing outside the buffers they were given; field.mul gives the same products with and without the native library.", "quantifier": "all well-formed arrays, shapes, keys, seeds and matrices", "why_tests_cant": "unbounded shapes; out-of-bounds reads usually go unnoticed in a test", "anchors": ["mplang/dialects/field.py", "mplang/backends/field_impl.py:_mul_impl,_decode_okvs_impl,_ldpc_encode_impl,_aes_expand_impl_prim", "mplang/kernels/gf128.cpp", "mplang/kernels/okvs.cpp", "mplang/kernels/ldpc.cpp"]}
{"id": "C172", "title": "arguments accepted when tracing are safe at run time", "statement": "Whatever arguments the field operations accept when traced, running them returns a value of the announced type or raises an error; it never reads memory outside the arguments.", "quantifier": "all arguments accepted by the abstract evaluation", "why_tests_cant": "memory safety over all shapes", "anchors": ["mplang/dialects/field.py", "mplang/backends/field_impl.py", "mplang/kernels/gf128.cpp", "mplang/kernels/okvs.cpp", "mplang/kernels/ldpc.cpp"]}
{"id": "C173", "title": "an evaluation answers with the parties' results or a party's failure", "statement": "On a simulator (one pool thread per party), evaluating an operation whose per-party programs would all return given a thread each returns, in every schedule of threads and messages, the parties' results in rank order; if a party raises, every schedule ends and the evaluation raises an exception raised by one of the parties, even if others wait for ever; successive evaluations return each its own results. Over HTTP the results, or the failure of the first failing rank, are reported if no earlier rank waits for ever.", "quantifier": "all numbers of parties, programs, message contents, schedules, sequences of evaluations", "why_tests_cant": "schedules of threads, deliveries and thread-pool starts are unbounded", "anchors": ["mplang/backends/simp_driver/mem.py:SimpMemDriver", "mplang/backends/simp_driver/http.py:SimpHttpDriver", "mplang/backends/simp_driver/ops.py:_generic_simp_dispatch", "mplang/backends/simp_worker/mem.py:LocalMesh"]}
{"id": "C174", "title": "evaluations from several threads complete", "statement": "Evaluations started from different threads on the same simulator or HTTP driver all complete if each would complete alone.", "quantifier": "all programs, all interleavings of the submissions", "why_tests_cant": "the deadlock depends on the interleaving of the submissions", "anchors": ["mplang/backends/simp_driver/mem.py:SimpMemDriver.submit", "mplang/backends/simp_driver/http.py:SimpHttpDriver.submit", "mplang/backends/simp_worker/mem.py:LocalMesh"]}
{"id": "C175", "title": "a failed evaluation is reported and can be followed by others", "statement": "When a party fails, the driver raises that failure at once, and the simulator remains usable: later evaluations and fetches of earlier objects work.", "quantifier": "all programs with a failing party, all schedules, all later calls", "why_tests_cant": "histories of calls after a failure at any point of any schedule", "anchors": ["mplang/backends/simp_driver/mem.py:SimpMemDriver.collect,fetch", "mplang/backends/simp_driver/http.py:SimpHttpDriver.collect"]}
{"id": "C176", "title": "attesting a quote gives back the quoted key", "statement": "tee.attest of tee.quote_gen(pk) is the public key pk, also when the quote travels as bytes (32-byte keys, suites of at most 255 bytes); only public keys can be quoted.", "quantifier": "all public keys and suites", "why_tests_cant": "all key and suite byte strings", "anchors": ["mplang/dialects/tee.py", "mplang/backends/tee_impl.py"]}
{"id": "C177", "title": "attest accepts only quotes made by quote_gen for the expected curve", "statement": "tee.attest raises on anything but a quote produced by tee.quote_gen, on truncated quotes and on keys whose suite is not expected_curve; every operation of the dialect can be run.", "quantifier": "all byte strings and quotes", "why_tests_cant": "forgeries range over all byte strings", "anchors": ["mplang/dialects/tee.py:attest,get_measurement", "mplang/backends/tee_impl.py:_attest_impl,MockQuoteValue.from_bytes"]}
{"id": "C178", "title": "random bits and tensors are uniform", "statement": "crypto.random_bits(n) returns n zeros and ones and every n-bit string is equally likely if os.urandom is uniform; crypto.random_tensor of an integer type returns the announced number of elements and every tensor of the type is equally likely.", "quantifier": "all n, shapes, integer element types and values", "why_tests_cant": "uniformity counts all 256^k outcomes", "anchors": ["mplang/dialects/crypto.py:random_bits,random_tensor,random_bytes", "mplang/backends/crypto_impl.py:random_bytes_impl"]}
{"id": "C179", "title": "random scalars are uniform non-zero scalars", "statement": "crypto.ec_random_scalar returns every non-zero scalar of the group with the same probability and never zero.", "quantifier": "all scalars", "why_tests_cant": "the distribution over 2^256 outcomes", "anchors": ["mplang/backends/crypto_impl.py:random_scalar_impl"]}
{"id": "C180", "title": "equal types with equal column orders hash equally", "statement": "If two types compare equal and the tables inside them list their columns in the same order, they have the same hash.", "quantifier": "all types and hash functions", "why_tests_cant": "types nest without bound", "anchors": ["mplang/edsl/typing.py"]}
{"id": "C181", "title": "fetch of a PPU or TEE object returns its value", "statement": "fetch(x) of an object on a PPU or TEE device returns the value held by the device's member.", "quantifier": "all devices, objects and values", "why_tests_cant": "all clusters and values", "anchors": ["mplang/libs/device/api.py:fetch"]}
{"id": "C182", "title": "table batches are complete when sizes fit", "statement": "Reading a table without a batch size delivers its batches unchanged; with a batch size that divides the sizes of all source batches but the last, it delivers every row once, in order, in batches of exactly that size except the last.", "quantifier": "all batch sequences and batch sizes", "why_tests_cant": "unbounded numbers of batches and rows", "anchors": ["mplang/backends/table_impl.py:TableReader"]}
{"id": "C183", "title": "multi-table writes never misalign rows", "statement": "Whatever table.write writes of several tables is, for each table, a prefix of its rows, in pieces of equal height, and at least one table is written completely; in-memory tables with equal chunk sizes are written completely.", "quantifier": "all tables, chunkings and formats but JSON", "why_tests_cant": "unbounded chunk structures", "anchors": ["mplang/backends/table_impl.py:write_impl,MultiTableReader"]}
{"id": "C184", "title": "sparse aggregation of distinct sources within a row", "statement": "When no (target, source) pair is listed twice and no source lies in the other row than its target, aggregate_sparse leaves in every target slot the sum of its sources modulo the plain modulus and zero elsewhere.", "quantifier": "all row sizes, moduli, ciphertexts, requests", "why_tests_cant": "unbounded numbers of slots and requests", "anchors": ["mplang/libs/mpc/analytics/aggregation.py:aggregate_sparse"]}
{"id": "C185", "title": "bucket aggregation for powers of two", "statement": "With 2, 4, 8, ... buckets whose unused slots are zero, batch_bucket_aggregate followed by extract_bucket_results gives the sum of every bucket modulo the plain modulus.", "quantifier": "all row sizes, bucket counts and contents", "why_tests_cant": "unbounded slots and buckets", "anchors": ["mplang/libs/mpc/analytics/aggregation.py:batch_bucket_aggregate,extract_bucket_results"]}
{"id": "C186", "title": "sessions while contexts live", "statement": "As long as every context keeps its own address, the session keys used for a PPU-TEE transfer were established in the context that performs it, in every history of transfers and contexts.", "quantifier": "all histories of transfers", "why_tests_cant": "unbounded histories", "anchors": ["mplang/libs/device/api.py:_ensure_tee_session"]}
{"id": "C187", "title": "SecureBoost splits of the active party are the best ones", "statement": "With gamma >= 0 or min_child_weight > 0, every split made on a feature of the active party is at its boundary with the largest regularised gain over the node's samples, and that gain is positive; no leaf above the last level has an active-party candidate with positive gain.", "quantifier": "all data sets, parameters, depths and parties", "why_tests_cant": "unbounded data and tree depth", "anchors": ["mplang/libs/ml/sgb.py:compute_best_split_from_hist,_find_splits_ap,build_tree"]}
{"id": "C188", "title": "disabled logging is silent", "statement": "From the import of the library on, and again after mp.disable_logging(), no log record of the library is written anywhere, whatever calls of setup_logging and disable_logging were made before and however the application configured Python's logging.", "quantifier": "all histories of logging calls, all application configurations, all levels", "why_tests_cant": "unbounded histories", "anchors": ["mplang/utils/logging.py:disable_logging"]}
{"id": "C189", "title": "a log record is written once to every destination asked for", "statement": "After a successful setup_logging call, every record at or above the level is written exactly once to the stream, the file and (with propagate) the application's handlers asked for, and nowhere else; a call that raises changes nothing.", "quantifier": "all histories of logging calls, all arguments, all levels", "why_tests_cant": "unbounded histories", "anchors": ["mplang/utils/logging.py:setup_logging"]}
{"id": "C190", "title": "a fresh or forced set-up of logging delivers once", "statement": "If force=True, or if nothing was set up since the import or the last disable_logging, a successful setup_logging call that asks for at least one destination writes every record at or above the level exactly once to every destination asked for and nowhere else.", "quantifier": "all histories of logging calls, all arguments, all levels", "why_tests_cant": "unbounded histories", "anchors": ["mplang/utils/logging.py:setup_logging"]}
{"id": "C191", "title": "get_logger stays below mplang", "statement": "mp's get_logger(name) always returns the logger mplang or one below it, so that setup_logging and disable_logging govern it.", "quantifier": "all names", "why_tests_cant": "all strings", "anchors": ["mplang/utils/logging.py:get_logger"]}
{"id": "C192", "title": "a program on an SPU device computes its functions", "statement": "Calling device functions on an SPU device whose members are listed in increasing rank order, with inputs on PPU and TEE devices and any literals, gives outputs that only the members hold; moved to a PPU or TEE and fetched there, each is the value the functions have on the inputs in SPU arithmetic.", "quantifier": "all sequences of calls, functions, inputs, member sets and earlier states of the SPU runtimes", "why_tests_cant": "unbounded programs and parties", "anchors": ["mplang/libs/device/api.py:_device_run,_device_run_spu", "mplang/dialects/spu.py:run_jax", "mplang/backends/spu_impl.py:exec_impl"]}
{"id": "C193", "title": "members' tensors as public arguments of spu.run_jax", "statement": "A tensor that all members of an SPU hold can be passed to spu.run_jax as a public argument, as its documentation says.", "quantifier": "all tensors, functions and other arguments", "why_tests_cant": "all values and functions", "anchors": ["mplang/dialects/spu.py:run_jax", "mplang/backends/spu_impl.py:exec_impl"]}
{"id": "C194", "title": "messages between HTTP workers arrive unchanged", "statement": "A message sent to another HTTP worker arrives from the sender's rank, under the key it was sent under, with the value sent, in the binary and in the JSON mode, for all keys without a meaning in a URL; all messages of jobs whose ids consist of letters, digits, dashes, underscores and dots have such keys.", "quantifier": "all values, keys, ranks, modes and histories of communication contexts", "why_tests_cant": "all values and strings", "anchors": ["mplang/backends/simp_worker/http.py:HttpCommunicator._do_send,_decode_binary_payload,receive_comm", "mplang/backends/simp_worker/comm_context.py:CommContext"]}
{"id": "C195", "title": "any job ids can be used over HTTP", "statement": "Requests with different job ids, whatever the ids, deliver their messages and never under each other's keys.", "quantifier": "all job ids", "why_tests_cant": "all strings", "anchors": ["mplang/backends/simp_worker/http.py:HttpCommunicator._do_send,receive_comm"]}
{"id": "C196", "title": "SecureBoost is gradient boosting", "statement": "SecureBoost.fit makes n_estimators trees; the k-th tree is the one grown on the gradients and hessians that the model made of the first k trees has at the training samples. predict gives at every sample the probability of the initial score plus the learning rate times the values of the leaves its features lead to. A model with more estimators extends one with fewer. With the active party alone, each tree moves the score of every training sample by the learning rate times the Newton step of the training samples in its leaf.", "quantifier": "all data sets, labels, loss gradients, parameters, numbers of parties and estimators", "why_tests_cant": "all data sets and numbers of trees", "anchors": ["mplang/libs/ml/sgb.py:fit_tree_ensemble,SecureBoost.fit,predict_ensemble,SecureBoost.predict"]}
{"id": "C197", "title": "merging traces keeps every event and keeps parties apart", "statement": "mplang-cli trace merge over well-formed trace files writes every event of every file exactly once, in the order of the files and of the events in them, changing only the process number (and, if the file name ends in _rank_N.json, the entry rank of its arguments, set to N); the process numbers of different ranks never coincide, those of one rank only if they agree modulo 10000. A damaged event costs only the rest of its own file.", "quantifier": "all lists of trace files, all file names, events, process numbers and ranks, all positions of a damaged event", "why_tests_cant": "file lists, names and process numbers are unbounded", "anchors": ["mplang/cli.py:cmd_trace_merge", "mplang/runtime/interpreter.py:ExecutionTracer.save_trace"]}
{"id": "C198", "title": "a merged trace attributes every event to the party that executed it, once", "statement": "After a run with tracing, merging the saved trace files shows each logged event once, under the rank of the party that executed it.", "quantifier": "all interleavings of logging and saving by all parties over any number of jobs, all process numbers", "why_tests_cant": "depends on the interleaving of parties and jobs, and on process numbers given by the operating system", "anchors": ["mplang/cli.py:cmd_trace_merge", "mplang/runtime/interpreter.py:ExecutionTracer", "mplang/backends/simp_driver/mem.py:MemCluster", "mplang/backends/simp_worker/http.py:create_worker_app"]}
{"id": "C199", "title": "Arguments reach operations and traced functions unchanged in value", "statement": "Whatever positional and keyword arguments a primitive, a traced function or a party-local function is called with, it receives as many positional arguments in the same order, each equal (Python ==) to the one given with every object lifted, and the same keyword arguments with equal values; an argument whose dicts are all written in ascending key order arrives exactly as given.  simp.constant makes tensors of numbers, booleans, arrays, lists and tuples and tables of dicts and data frames at exactly the parties named, and refuses strings, None and other objects; put does this at the single party of a PPU or TEE; a dict becomes a table in which every name denotes the column given under it.", "quantifier": "All argument trees (lists, tuples, dicts, None and leaves, nested arbitrarily), all lift functions, all party lists, all clusters, all dicts of columns.", "why_tests_cant": "Tests call functions with a few flat arguments; the value of every nested argument has to survive three flatten/unflatten passes for all structures.", "anchors": ["mplang/edsl/primitive.py:Primitive.bind", "mplang/edsl/tracer.py:Tracer.run", "mplang/dialects/simp.py:constant,pcall_static", "mplang/libs/device/api.py:put", "mplang/dialects/table.py:constant"]}
{"id": "C200", "title": "Tables made from dicts keep the order of the columns", "statement": "The columns of a table made with simp.constant, put or table.constant from a dict come in the order of the dict, as a data frame's columns do, and so do the columns of the tensor made from the table; keyword arguments reach a function in the order they were written in.", "quantifier": "All dicts of columns, all keyword arguments.", "why_tests_cant": "Tests use dicts written in alphabetical order or compare columns by name.", "anchors": ["mplang/edsl/primitive.py:Primitive.bind", "mplang/dialects/simp.py:constant", "mplang/dialects/table.py:constant,table2tensor"]}
{"id": "C201", "title": "Every value given to an operation takes part in it", "statement": "Whatever is passed to an operation - objects or host values such as arrays - either takes part in the result, in the order given, or the call is refused; concat of several tensors joins all of them.", "quantifier": "All argument lists, mixed of objects and host values, of all operations with an abstract evaluation rule.", "why_tests_cant": "Tests pass objects only; which mixtures are accepted depends on the kind of the rule and on the rest of the list.", "anchors": ["mplang/edsl/tracer.py:Tracer.bind_primitive", "mplang/dialects/tensor.py:concat", "mplang/dialects/simp.py:converge"]}
{"id": "C202", "title": "Every operation that can be traced can be executed", "statement": "Every operation the dialects can record in a program has an implementation on a worker once the built-in backends are loaded, or the program is refused before any of its operations is executed; the implementation used is the interpreter's own handler if there is one, else the one registered last; a backend that fails to import takes away exactly its own operations.", "quantifier": "All operations of all dialects, all sets of backends that fail to import, all sequences of registrations, all programs.", "why_tests_cant": "Tests import the backends they use themselves and execute few operations of each dialect; which registrations and import failures happen depends on the installation.", "anchors": ["mplang/edsl/registry.py:register_impl,get_impl", "mplang/backends/__init__.py:load_builtins,load_backend", "mplang/runtime/interpreter.py:Interpreter.evaluate_graph", "mplang/backends/simp_worker/ops.py:WORKER_HANDLERS", "mplang/backends/phe_impl.py:keygen_impl"]}
{"id": "C203", "title": "The profiler accounts for every execution once", "statement": "With profiling on, the summary of an operation counts every execution of it that returned, with the sum, minimum and maximum of their durations; the leaf summary gives self time, without counting any time twice, so its total is at most the time the program took.", "quantifier": "All trees of nested executions with all durations, operations that raise, and all handler tables.", "why_tests_cant": "Depends on how executions nest, which is unbounded, and on durations.", "anchors": ["mplang/edsl/registry.py:OpProfiler,get_impl,enable_profiling"]}
{"id": "C204", "title": "a program run by all workers ends as it means", "statement": "When every party runs the same program (local calls, shuffles without mutual exchange, converge, uniform_cond, while loops on whose condition the parties agree), then however their steps interleave and their messages are delivered, every execution is finite, and ends with every party holding its local values of the program's meaning, or, when a verified predicate differs between parties, with the error at every party; no message is left over, the outcome does not depend on the schedule, and a value with static parties is held by no other party.", "quantifier": "all programs, all world sizes, all interleavings and delivery orders", "why_tests_cant": "unbounded programs and schedules", "anchors": ["mplang/backends/simp_worker/ops.py:WORKER_HANDLERS", "mplang/runtime/interpreter.py:Interpreter.evaluate_graph", "mplang/backends/simp_worker/comm_context.py:CommContext"]}
{"id": "C205", "title": "shuffles after a loop deliver what they name", "statement": "A shuffle gives its targets the values of its sources at that point of the program, also after a while_loop whose number of turns differed between parties, or an error is reported.", "quantifier": "all programs, all schedules", "why_tests_cant": "needs a particular history of messages", "anchors": ["mplang/backends/simp_worker/ops.py:_while_loop_worker_impl,_shuffle_static_worker_impl", "mplang/backends/simp_worker/comm_context.py:CommContext.recv"]}
{"id": "C206", "title": "Crashes and lost messages never make another party return a wrong result", "statement": "When parties die in the middle of a run (process killed, local function raising, receive timing out) and messages are lost at any points, a party that does return from the worker program returns exactly the values the program means for it; and if the program's predicate differs between parties, no party returns a value.", "quantifier": "every worker program, every environment, every schedule of steps, deliveries, crashes of any parties and losses of any messages", "why_tests_cant": "Tests stop at most one worker at one place; the claim is about all crash points, message losses and interleavings together.", "anchors": ["mplang/backends/simp_worker/ops.py:_uniform_cond_worker_impl", "mplang/backends/simp_worker/ops.py:_shuffle_static_worker_impl", "mplang/backends/simp_worker/mem.py:LocalMesh", "mplang/backends/simp_worker/http.py:HttpCommunicator"]}
{"id": "C207", "title": "Static types of table programs describe the run-time tables", "statement": "In a program of table constants, files read, SQL queries, compiled tensor computations and conversions between tables and tensors, whose constants are homogeneous and whose declared schemas and out_types are right, every run-time table has the columns, column types and order of its static type, and every tensor the dtype, shape and row count of its; and such a program, once accepted, runs to the end if no file or query fails or gives nulls, no row count is announced and no tensor of a type Arrow lacks becomes a table.", "quantifier": "all programs of these operations of any length, all tables, tensors, names and declared types", "why_tests_cant": "The composition of arbitrarily many operations on unbounded tables; each operation's static rule and run-time implementation are in different modules.", "anchors": ["mplang/dialects/table.py:_run_sql_trace,_table2tensor_ae,_tensor2table_ae,_constant_ae,_read_ae,_write_ae", "mplang/backends/table_impl.py:run_sql_impl,table2tensor_impl,tensor2table_impl,constant_impl,read_impl,write_impl"]}
{"id": "C208", "title": "Declared table types are checked", "statement": "Whatever types a program declares for its queries and files, a run-time table that has another type than its static one is refused.", "quantifier": "all programs of table operations and all declared types", "why_tests_cant": "Declared types are arbitrary; a test with a right declaration cannot see that wrong ones pass.", "anchors": ["mplang/dialects/table.py:_run_sql_trace,_read_ae,_write_ae", "mplang/backends/table_impl.py:run_sql_impl,read_impl,write_impl"]}
{"id": "C209", "title": "A program of device calls computes what its functions compute, wherever its values live", "statement": "A driver program that puts values on devices, moves objects between devices and calls functions on devices (named or inferred from the arguments), for every device combination a transfer exists for, runs to the end, and every object it makes lies on the device it should, is held by nobody outside that device, and stands for the value that the same program computes on plain values (encoded and computed in SPU arithmetic where it went through an SPU); fetching it from a PPU or TEE gives that value, and when SPU arithmetic is exact it is the value of the plain Python program. It does not matter which TEE sessions had to be made on the way or which variables earlier executions left in the SPU runtimes.", "quantifier": "every program of puts, moves and device calls, every cluster with one-member PPUs and TEEs and SPUs listed in rank order, every SPU, encryption and attestation library that keeps its promises, all values and functions, all keys drawn", "why_tests_cant": "Tests run a few short programs; the claim composes transfers, sessions, inference, SPU runs and local runs in any order and number.", "anchors": ["mplang/libs/device/api.py:_device_run,put,_d2d,device,_ensure_tee_session,_infer_device_from_args,fetch", "mplang/dialects/spu.py:run_jax"]}
{"id": "C210", "title": "A dynamic party call runs exactly where its arguments are", "statement": "simp.pcall_dynamic(f, args): every party that holds all arguments has the outputs of f on its own values, and every other party has None for every output.", "quantifier": "every function, every number of parties, every distribution of the arguments over the parties", "why_tests_cant": "Which parties hold which arguments is arbitrary, and the worker's handler never looks.", "anchors": ["mplang/dialects/simp.py:_pcall_dynamic_trace,pcall_dynamic", "mplang/backends/simp_worker/ops.py:_pcall_dynamic_worker_impl", "mplang/runtime/interpreter.py:evaluate_graph"]}
{"id": "C211", "title": "Secrets stay on their path through a program of device calls", "statement": "In a program of put, device(...)(fn)(...) and moves, change the values put by some statements. A rank that is a member of none of the devices these values get to (the devices of these puts, and of every call or move that uses an object the values got into) sees exactly the same in both runs: the same values, shares, ciphertexts and session messages in the same order; and every object the values did not get into is the same, so that mp.fetch gives the same.", "quantifier": "every program of device calls, every cluster of PPUs, SPUs and TEEs, every choice of secret inputs and values, every SPU library, cipher and key agreement, every state of the session cache and of the SPU runtimes", "why_tests_cant": "A leak shows only when two runs with different secrets are compared at a rank that should see no difference; a test compares results, not what bystanders receive.", "anchors": ["mplang/libs/device/api.py:_device_run,_d2d,_ensure_tee_session,_infer_device_from_args,put,fetch"]}
{"id": "C212", "title": "Only routed values reach a party", "statement": "Run a SIMP program twice on inputs that agree at the parties from which the routings of its shuffles lead to party r (r itself among them) and differ anywhere else. If party r returns in both runs, it returns the same values: through branches, loops, converge and party calls nothing else about other parties' inputs arrives. What they can decide is whether the run fails on a predicate the parties do not agree on.", "quantifier": "every program, every world size, all pairs of inputs, every order of steps and deliveries, every crash of parties and loss of messages", "why_tests_cant": "It compares two executions under all schedules, with inputs that differ arbitrarily at other parties.", "anchors": ["mplang/backends/simp_worker/ops.py:_pcall_static_worker_impl,_pcall_dynamic_worker_impl,_shuffle_static_worker_impl,_converge_worker_impl,_uniform_cond_worker_impl,_while_loop_worker_impl", "mplang/runtime/interpreter.py:evaluate_graph"]}
{"id": "C213", "title": "Device programs on the network", "statement": "Trace a program of put, device(...)(fn)(...) and moves over PPUs and TEEs and run it on the workers: tracing succeeds, every execution ends (no deadlock, no message left over), and every rank ends with exactly the results of the devices it is a member of, with the values the program means, and None for the rest - sessions, encryption and messages included. A rank that fails to be hit by a crash or a lost message and returns, returns these values. A rank that is in no device the program names sends nothing, receives nothing and holds nothing.", "quantifier": "every program of device calls on PPUs and TEEs, every cluster, every world size, every choice of values, ciphers and keys, every order of steps and deliveries, every crash of workers and loss of messages", "why_tests_cant": "Whether values, keys and positions stay in step between the traced program and what it should mean depends on every earlier operation of the trace, and the executions of the workers are unboundedly many.", "anchors": ["mplang/libs/device/api.py:_device_run,_d2d,_ensure_tee_session,put", "mplang/dialects/simp.py:pcall_static,shuffle_static", "mplang/backends/simp_worker/ops.py:_pcall_static_worker_impl,_shuffle_static_worker_impl", "mplang/runtime/interpreter.py:evaluate_graph"]}
{"id": "C214", "title": "Packed encrypted histograms keep the features apart", "statement": "When the encrypted histograms of many features are packed into shared ciphertexts, decrypted and unpacked, each node and feature gets exactly the histogram it would have alone: no feature's bucket sums land in another feature's, batches and nodes are not confused, and the decrypting party sees nothing of the samples beyond these sums (the vector it decrypts is a function of the histograms). It holds for every power-of-two bucket count; with a bucket count whose regions reach over the middle of the slot vector, later features wrap into the wrong slots.", "quantifier": "every ring size, plain modulus, gradient vector, list of nodes and list of features, every number of batches; every bucket count whose regions respect the two slot rows", "why_tests_cant": "Packing errors depend on the product of bucket count, stride, feature number and ring size and on where regions fall relative to the two rows of slots; tests use few features and one default bucket count, for which the wrap needs hundreds of features.", "anchors": ["mplang/libs/ml/sgb.py:_compute_histogram_chunk_batch,_process_decrypted_jit,_decrypt_batch,fhe_histogram_optimized,decrypt_histogram_results"]}
{"id": "C215", "title": "A local cluster is the same by options and by generated file", "statement": "Workers started without a configuration file listen at the base port plus their rank and know each other there; with an SPU base port every worker has its own SPU address, different from the others' and, for disjoint port ranges, from every worker's address. A configuration file generated with some options, read back by any command, means the same workers and addresses as the options themselves, including the SPU addresses chosen, and endpoints given on the command line carry the SPU addresses with them.", "quantifier": "every world size, base port, SPU base port and list of endpoints", "why_tests_cant": "The agreement is between two code paths that build addresses separately, for all sizes and ports; tests start one cluster of three with default ports.", "anchors": ["mplang/cli.py:build_endpoints,cmd_config_gen,cmd_worker,cmd_up,cmd_run"]}
{"id": "C216", "title": "Requests and SPU links never use each other's message keys", "statement": "Two requests with different job ids, and a request and any SPU link, never put messages under a common key, whatever contexts they spawn and whatever they exchange, so that neither can receive or overwrite the other's messages.", "quantifier": "all pairs of job ids, all histories of spawning (with any suffixes) and exchanging messages, all SPU tags", "why_tests_cant": "Keys are text made of ids, counters, suffixes and tags; whether two histories can make the same text is a question about all strings, and a collision shows only when both are under way at once.", "anchors": ["mplang/backends/simp_worker/comm_context.py:CommContext", "mplang/backends/channel.py:_make_key", "mplang/backends/simp_worker/request.py:create_request_interpreter", "mplang/backends/spu_state.py:SPUState"]}
{"id": "C217", "title": "The text of a graph determines its structure", "statement": "Two graphs with the same printed text (attributes hidden) have the same inputs, operations, opcodes, arguments, nested regions and outputs, in the same order, and, if types are shown, inputs and results of the same types.", "quantifier": "all pairs of graphs, with any nesting of regions and any number of operations, inputs and outputs; all indentation sizes", "why_tests_cant": "Whether a text can be read in two ways is a question about all pairs of graphs; tests compare the text of single graphs.", "anchors": ["mplang/edsl/printer.py:GraphPrinter,format_graph"]}
{"id": "C218", "title": "Keys stay with their holder when values are sent", "statement": "BFV contexts and ciphertexts, SPU shares and attestation quotes written to text and read by another party arrive with the same content; the text of a public key does not depend on the secret key behind it, the text of a ciphertext on none of the sender's keys, and a value sent on has the text it came in.", "quantifier": "all contexts (with any keys), payloads, shares with any number of chunks, quotes, and all chains of parties", "why_tests_cant": "Tests send a few values; that a text does not depend on a key compares all pairs of keys, and the round trip is for all contents and any number of hops.", "anchors": ["mplang/backends/bfv_impl.py:BFVParamContextValue,BFVPublicContextValue,BFVSecretContextValue,BFVValue", "mplang/backends/spu_impl.py:SPUShareValue", "mplang/backends/tee_impl.py:MockQuoteValue", "mplang/edsl/serde.py:to_json,from_json,dumps,loads"]}
{"id": "C219", "title": "bitcast reinterprets the same bytes", "statement": "tensor.bitcast(x, t), for a type t that JAX keeps (any with its 64-bit mode on, any of up to 32 bits without), returns a tensor of type t with the bytes of x and its leading axes, or raises exactly when the bytes of a row do not divide into elements of t; casting back returns x.", "quantifier": "all tensors of integer and float types, any shape (scalars and empty axes included) and content, and all pairs of types", "why_tests_cant": "That no bit is lost is for all contents, shapes and pairs of widths; the tests have none for bitcast.", "anchors": ["mplang/dialects/tensor.py:bitcast", "mplang/dialects/dtypes.py:to_jax"]}
{"id": "C220", "title": "evaluate returns the share of samples that were classed rightly", "statement": "SecureBoost.evaluate, given as many labels as samples in a vector, returns the number of samples whose label is 1 and predicted probability above one half, or whose label is 0 and probability at most one half, over the number of samples; this is 1 exactly when every sample is such, and labels of another number (other than 1) are rejected.", "quantifier": "all fitted models, link functions, features and labels, any number of samples", "why_tests_cant": "The share is a count over all samples and its value for every model and label vector is in question; there is no test of evaluate, and one with a vector of labels would not show what a column does.", "anchors": ["mplang/libs/ml/sgb.py:SecureBoost.evaluate,predict_ensemble"]}
{"id": "C221", "title": "slice_tensor selects what Python slices select", "statement": "tensor.slice_tensor(x, starts, ends, strides), when it runs, returns for each named axis the elements from start on in steps of the stride up to but not including end (backwards for negative strides; negative positions count from the end; positions outside the axis are cut to it), in that order, and all elements of the other axes.", "quantifier": "all tensors of any rank, all lists of starts, ends and strides, negative and out of range ones included", "why_tests_cant": "Boundaries, negative strides and clipping make infinitely many cases; the tests look at a few positive ones.", "anchors": ["mplang/dialects/tensor.py:slice_tensor", "mplang/backends/tensor_impl.py:slice_impl"]}
{"id": "C222", "title": "Reshape, transpose, concat and gather move elements and change none", "statement": "tensor.reshape keeps the elements in row-major order under the shape asked for (and reshaping back returns the tensor); transpose puts the element at index j where axis k has position j[perm[k]]; concat puts each part behind those before it along the axis, and slicing at its offset gives it back; gather puts, for every index of the tensor of positions, the slab at that position, negative ones counted from the end.", "quantifier": "all tensors of any rank and extents (empty ones included), all permutations, axes, new shapes with or without one open extent, lists of parts and tensors of positions", "why_tests_cant": "Where every element of a tensor of any rank goes is for all ranks, extents and axes; the tests look at a few small tensors.", "anchors": ["mplang/dialects/tensor.py:reshape,transpose,concat,gather", "mplang/backends/tensor_impl.py:reshape_impl,transpose_impl,concat_impl,gather_impl,slice_impl"]}
{"id": "C223", "title": "The structure checks accept lists and morph structures, and no more is promised", "statement": "is_treedef_list accepts every non-nested list (the empty one included) and nothing but lists each of whose items holds exactly one leaf; validate_morph_struct accepts every structure var_morph returns and exactly the triples of a tree structure, a tuple of ints and a list, and raises TypeError for all other objects; var_demorph, given a variable for each of the increasing positions, rebuilds a value exactly when variables and constants together are as many as the structure has leaves.", "quantifier": "all nested values of lists, tuples, dicts and None, any depth and size, all predicates, and all objects given for a structure", "why_tests_cant": "Tests give each check a handful of values; what is accepted is a set of values of any depth.", "anchors": ["mplang/utils/func_utils.py:is_treedef_list,validate_morph_struct,var_morph,var_demorph"]}
