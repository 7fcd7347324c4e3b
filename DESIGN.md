# Formal model of secretflow/mplang in Rocq (Coq 8.16.1)

The code in /repo is read as text and re-expressed function by function as total,
executable Gallina definitions. Each definition carries a comment citing the file
and lines it models and every simplification. Exceptions are values (`result`/`option`).

Layout of `rocq/theories`, per subsystem `X`:

* `XModel.v`  – the model only, no proofs.
* `XSpec.v`   – (where useful) a small independent specification used in statements.
* `XProofs.v` – lemmas.
* `XProps.v`  – only property theorems, each closed by `exact lemma`, with
  `Print Assumptions` beneath and a non-vacuity `Example` beside it.

Theorems named `…_refuted` are proofs that the unchanged code violates the
property (with a concrete witness); `…_partial` are restrictions of the full statement.

## Per-property plan

* **C01 field.mul is multiplication in GF(2^128)** — model clmul64/clmul128/reduce over N bit-for-bit; spec = GF(2)[x] polynomials as N with xor and an independent carry-less product; prove product = q*P xor r with r<2^128, uniqueness of the remainder, ring laws.
* **C02 where the native and Python field.mul kernels agree** — model the C++ kernel intrinsics (clmulepi64 immediate semantics) and compare with the Python model; a disagreement is a refutation with witness.
* **C03 OKVS decode inverts OKVS solve** — model peeling queue, degree counters and back substitution for abstract hash triple; invariant: assigned column occurs in no later-assigned row.
* **C04 OKVS solve never reports success on an unsolvable instance, and always terminates** — fuelled loop with proof that m steps suffice; Python error branch; C++ failure branch returns a zero store (refutation).
* **C05 the optimized OKVS kernels are interchangeable with each other** — model kernel selection thresholds and both kernels' hash layouts; refutation when key counts differ / fallback solver used.
* **C06 LDPC syndrome encoding is linear** — model CSR loop; prove linearity.
* **C07 Oblivious transfer delivers exactly the chosen message** — OTModel: the three messages of the transfer over an abstract abelian group of finite order (record, hypotheses group_ok in the statement), SHA and PRG abstract functions; algebraic proof, instance Z/11.
* **C08 IKNP OT extension delivers exactly the chosen message** — OTModel iknp_core: column seeds by base OT, PRG expansion, correction matrix, transpose; pointwise proof t = q xor r*s, then the extension transfer.
* **C09 Gilboa VOLE correlation** — VOLEModel: bit decomposition of Delta rows, GF(2^128) product from GFModel; induction over the 128 bit shifts, distributivity of the field product.
* **C10 Silent VOLE expansion preserves the correlation** — chunked 0/1 expansion over the base correlation; linearity of xor sums.
* **C11 Silver VOLE outputs are VOLE-correlated** — silver_vole with CSR code and sparse noise; correlated iff noise zero; silver_vole_ldpc draws u and delta independently.
* **C12 PSI tags agree on the intersection** — PSIModel psi_run over the OKVS kernels (OKVSModel), the silent VOLE (VOLEModel), the abstract block generator and SHA; tag algebra by linearity of decoding and of the product; field laws (C01) for non-matching items.
* **C13 Cuckoo insertion keeps the table sound** — CuckooModel.v models hash_to_positions (uint64 wrap-around) and the three scatter rounds of cuckoo_insert_batch with an arbitrary winner for each contested slot; the invariant over rounds (CuckooProofs.v) gives a record of eight facts about the returned arrays (CuckooProps.v).
* **C14 OPRF sender and receiver agree on matching rows** — OPRF as coded: repetition code replaced by the item's bits; agreement iff the bits selected by s agree.
* **C15 oblivious permutation applies the permutation** — PermModel.v models the control computation and the layer application with numpy gather/scatter/where/dynamic_slice on lists, the first layer through the OT model of C07. PermNet.v proves the bitonic network sorts (0-1 principle over thresholds; invariant: every window bitonic, windows of a block ordered by direction; half-cleaner lemma), for every power of two; PermProofs.v tracks the composed position map and concludes.
* **C16 rotate-and-sum computes the slot sum** — BFVModel.v models ciphertexts symbolically (key, slot vector of 2 rows of R); aggregation.py modelled function by function; loop invariant of the doubling loop by induction (BFVProofs.v), theorems for powers of two or zero padding.
* **C17 private group-by sum equals the plaintext segment sum** — groupby_bfv and groupby_shuffle modelled end to end (BFVModel.v, GroupModel.v over the OT/permutation model); result equals group_sum of BFVSpec.v. The networked BFV variant is refuted for bins missing from a chunk (mul by the zero mask needs an encryptor the deserialised ciphertext lacks), proved otherwise.
* **C18 bit packing utilities are inverse** — CuckooModel.v models both helpers over byte lists; the round trip is computed as bytewise bit reversal for every byte array (exhaustive over one byte, induction over the array), so the stated inverse law is refuted and the actual law proved.
* **C19 sparse noise has the requested number of positions in range** — noise position loop over an arbitrary draw list; refuted for weight >= 3, range and count proved.
* **C20 JSON serde round trip** — deep value type, encoder/decoder on JSON trees.
* **C21 binary container round trip and rejection** — byte-level container with LE lengths.
* **C22 type serde round trip and constructor validation** — type AST, encoder/decoder; validators.
* **C23 equal types hash equally** — refutation with permuted schema.
* **C24 graphs stay in SSA form** — graph state machine with invariant.
* **C25 graph JSON round trip** — encoder/decoder; counter-gap refutation.
* **C26 output morphing round trip** — list functions.
* **C27 tracing captures each outer value once and binds inputs in order** — tracer state machine.
* **C28 interpreter reference counting never frees a live value** — evaluation with ref-count environment vs. plain environment.
* **C29 asynchronous execution is schedule independent** — scheduler transition system with arbitrary completion order; invariant + measure.
* **C30 asynchronous execution reports failures** — same transition system with failing ops.
* **C31 collectives compute their specification at every participant** — message-passing transition system; per-rank programs; confluence.
* **C32 uniform predicate verification is unanimous** — same.
* **C33 shuffle delivers every routing without mutual exchange** — counter-keyed shuffle model; swap deadlock refutation; correctness for routings without 2-cycles.
* **C34 message keys never collide and peers derive the same key** — counter model.
* **C35 mailbox delivers each message exactly once** — mailbox state machine refinement.
* **C36 the object store returns what was stored** — refinement to finite map.
* **C37 which file-system keys are accepted** — string-level path resolution; refutation by sibling prefix.
* **C38 static parties confine values** — party set inference vs. run-time presence.
* **C39 converge merges disjoint values** — converge rule vs. run-time merge.
* **C40 collective library routings** — routing lists.
* **C41 driver results are per-party** — list transpose.
* **C42 cluster specification validity and round trip** — ClusterModel: to_dict, from_dict, endpoints, simple on configurations with optional fields. Acceptance iff valid_config; rank = position; to_dict/from_dict identity for everything from_dict and simple build, and exactly for regular hand-built specifications; refuted for a hand-built one.
* **C43 device inference is total and order independent** — DeviceModel.infer on the list of argument devices; iff characterisations of the three outcomes, invariance under any reordering or repetition.
* **C44 device transfers keep plaintext confined** — DeviceModel.d2d on the SIMP object layer, returning every intermediate object, marked when it travelled. Confinement to the members of the two devices; shares dealt one per member; TEE wire contents; delivery, with sharing, encryption, attestation and key agreement as algebraic hypotheses.
* **C45 fetch of a secret-shared value reconstructs it** — DeviceModel.fetch; refuted for every sharing (the first share is returned); PPU and TEE objects are returned.
* **C46 SPU links are used only by their own parties** — DeviceModel.run_execs: link cache keyed by local rank, size, configuration and endpoints. Proved for injective endpoints; refuted without endpoints.
* **C47 request life cycle** — RequestModel.v: Request (backends/simp_worker/base.py) with its concurrent future as a state machine; histories of start/finish/cancel/wait/test/status calls. Theorems: status is the operation's fate, monotone, wait/test/wait_all/wait_any outcomes; refuted: cancelled requests reported as completed by test, TimeoutError of the operation indistinguishable, status not monotone with non-ordinary exceptions.
* **C48 job status answers are truthful** — JobModel.v: the task objects, pool threads (one assignment per step) and the poll endpoint (three reads) as an interleaving semantics over event lists. Refuted as stated (status stored before result); proved for unique ids: every response is truthful, and final once the thread finished, by an invariant over all interleavings.
* **C49 at most one asynchronous job runs at a time** — JobModel.v as for C48: exclusiveness and acceptance-iff-idle by an invariant over all interleavings, plus progress (a busy worker always becomes idle by pool steps alone); id uniqueness refuted.
* **C50 table batch reader loses no rows** — batch reader state machine; refutation of no-loss because to_batches()[0] keeps only the first chunk.
* **C51 multi-table write keeps rows aligned** — lock-step reader; refutation at aligned boundaries.
* **C52 program artifacts validate on load** — Model compile / pack / unpack and the validator on top of the serialiser model of C20; prove that compile output validates, pack/unpack returns the same program (up to JSON key order), unpack only accepts consistent artifacts, and that a graph accepted under somebody else's digest is the same graph or a hash collision. Refute what is not covered (empty digest, metadata, reordering of dicts).
* **C53 graph execution key is name independent** — Model `str` of every type, the attribute encoder and the canonical fingerprint of a graph (interned value numbers, sorted attributes, recursion into regions); prove the key is invariant under renaming (`alpha`) and, for graphs whose types print unambiguously and whose attributes are plain data, that equal fingerprints imply `alpha`. Refute the unrestricted converse: SS schema, opaque attributes, list/tuple, cached key.
* **C54 key generation is independent per call** — Key cache as a state machine over call histories; exact characterisation of when two calls return the same pair; refutes the property.
* **C55 control flow keeps its meaning under tracing** — deep embedding of traced bodies with closures, tracer state, graph evaluator and direct evaluator; simulation proof by induction on the body; refutation by differing branch constants and constant loop conditions.
* **C56 failing puts are harmless** — file contents modelled as complete or incomplete pickles, put truncates first; refutation for every stored key, and preservation for every other failure.
* **C57 a failed table write leaves no partial file** — writer loop with the order of remove, close and raise as in the finally block; theorem for Parquet/CSV, refutation for JSON for every failing write.
* **C58 the base OT hides the choice bit** — from the OT model: bijection of scalars, for a group whose generator has exact order.
* **C59 silent VOLE outputs are fresh for every index** — same model; equality of the masks of every full chunk refutes freshness for every run.
* **C60 unbalanced PSI marks exactly the matching client items** — PSIModel psi_unbalanced over OKVSModel; completeness from decode-inverts-solve, exact characterisation of marks.
* **C61 evaluation keys do not decrypt** — make_galois_keys / make_relin_keys return the secret context: refuted by decrypting every chunk in the receiver's view.
* **C62 shuffle group-by reveals only sums and bin sizes** — Views recorded by the group-by model; bijection of masks (shift_mask) giving equal receiver views; helper view shown to contain the bins.
* **C63 sparse aggregation delivers every requested sum** — rotations dict as association list; sum invariant over NoDup pairs; refutations for duplicates, cross-row and empty requests.
* **C64 bucket aggregation yields the bucket sums** — doubling law instantiated at bucket starts for power-of-two bucket counts; refutations otherwise.
* **C65 encrypted gradient histogram equals the plaintext histogram** — SGBModel.v models masks and histogram of one node and feature; refuted by an 8-slot run. SGBHistProofs.v: general characterisation of what is summed (invariant over blocks: slot p holds mask times data, then rotation sums), and equality with the plaintext histogram for batches laid out by bucket.
* **C66 rotate-and-sum tolerates irrelevant data beyond k** — refuted by k = 3 on an 8-slot vector.
* **C67 while_loop keeps parties in step** — SimpModel's joint run with an active set; refuted by a typed loop whose parties leave after different iterations, and by one that communicates in its body and never completes (every fuel).
* **C68 while_loop honours its condition** — SimpModel: an immediate condition leaves the condition region without outputs; refuted for every body: the loop returns its initial state.
* **C69 which SPU clusters deal shares to their ranks** — index of a rank among the members as listed versus among the sorted parties; equal for all members iff the list is increasing; refuted by members 2, 0, 1.
* **C70 a TEE session belongs to the current context** — cache keyed by device pair and id(context); correct while addresses determine contexts; refuted by an address reused by a later context.
* **C71 the world size is the least one for the listed parties** — On the artifact model of C52: prove the world size is the least one that contains every party of a `parties` attribute; refute that it covers parties that appear only in types or shuffle routings.
* **C72 static tensor types describe the run-time tensors** — Small typed tensor language (TensorModel.v: one constructor per tensor primitive, its abstract_eval and its implementation); conformance of values to types in TensorSpec.v; induction over programs.
* **C73 accepted tensor programs run without shape errors** — Same model, result type distinguishes shape errors from data errors (index out of range); progress by induction over programs for static shapes; refuted for tensor.scatter, which has no implementation.
* **C74 tensor.elementwise applies the function at every index** — Same model; pointwise characterisation of elementwise for all functions; refuted for dynamic shapes (silent truncation to the first operand).
* **C75 tensor.constant delivers the array it was given** — ConstModel.v: dtype table and substring fallback, tobytes/frombuffer on bit patterns, base64, per-tracer cache; round trip and history theorem by an invariant on the cache; refuted for swapped byte order, bfloat16, empty arrays.
* **C76 curve expressions compute the group element** — CryptoModel.v: expression trees over the abstract group of C07, run-time points with the None/invalid distinction; specification as integer multiples of the generator; induction over expressions; refuted for cancelling sums and the bytes of infinity.
* **C77 symmetric decryption inverts encryption and accepts nothing else** — AES-GCM as a parameter with decrypt-inverts-encrypt and only-encryptions-accepted laws, composed with the serialisation of C20 down to bytes; refuted: target_type is never checked.
* **C78 hashes are functions of the tensor's content** — Tensor buffers as lists of element bytes or of object addresses; row theorem for hash_batch by induction; refuted for dtype=object tensors.
* **C79 key agreement gives both sides the same usable key** — X25519/HKDF as parameters with the Diffie-Hellman law; whole session set-up composed with C77; quote byte codec; refuted: reflection, requested suite, other hash algorithms.
* **C80 homomorphic arithmetic computes modulo n** — PHEModel.v: typing rules, eager bind, fixed-point encode/decode with CPython's float(int) written out, elementwise lifting; LightPHE is a parameter with the laws of an additive scheme modulo n (PHESpec.lib_laws). Induction over expressions; error bound in Q; refuted for negative results, products, tensors, max_value and dtype.
* **C81 a PHE public key only encrypts** — Same model; type-level key separation proved; value-level separation refuted (keygen returns the same context twice and ciphertexts carry it); mixed keys and scheme names refuted.
* **C82 func.call of func.func(f) is f** — EagerModel.v over the tracer model of C55: func.func traces, records only the graph; func.call resolves the handle in the current context and evaluates. Closed functions proved by the tracing soundness theorem; captures and other contexts refuted in general.
* **C83 eager execution equals compiled execution** — EagerModel.v: Interpreter.bind_primitive traces one call and evaluates the one-statement graph; induction over programs against run_body (EagerProofs.eager_sound); statements without results refuted.
* **C84 lifting traced objects is stable** — EagerModel.v: lift_value with the per-object cache and a run counter; invariants over histories of lifts (LiftProofs.v); single execution refuted with a random operation.
* **C85 SecureBoost prediction follows the tree** — TreeModel.v: locations/predict_tree as written (masks, both children for foreign nodes); invariant over the node loop: a node is marked by party p iff p's own decisions allow it; the conjunction over the parties leaves exactly the traversal's leaf (TreePredict.v).
* **C86 SecureBoost training and prediction agree** — TreeModel.v: binning, level_step, build_tree over exact rationals; invariant by induction over levels: each sample's node equals the walk in the tree built so far (TreeProofs.levels_walk, TreeTrain.agree). Holds for the active party unconditionally; refuted for passive parties (threshold index without boundary, clamped by JAX).
* **C87 SecureBoost splits at the best gain** — TreeSplit.v/TreeTrain.v: histogram gains equal gains over the samples; argmax over features and thresholds; greedy optimality of every active-party node and leaf. Passive parties: exact characterisation of the doubly accumulated histogram and refutations.
* **C88 histogram subtraction is exact** — TreeHist.v: induction over levels with the partition of the parent's samples between the children.
* **C89 one-hot column accessors agree** — VecModel/VecSpec/VecProofs: rows as Arrow stores them; induction over the scatter loops against a denotation of a row.
* **C90 a table with vector columns becomes the matrix of its features** — VecProofs.table_ok: hstack of the per-column matrices; row-wise concatenation.
* **C91 vector column types are recovered from their metadata** — VecProofs.type_roundtrip by cases on the constructors; the module's own registration evaluated as a term.
* **C92 operations go to the innermost active context** — ScopeModel: commands over the module-global stack against a stack-free lexically scoped meaning; induction on programs; threads as interleavings with a Dyck-word invariant.
* **C93 table files of different names are separate** — TabFileModel: a file system with symbolic links, download/upload as coded; invariant over histories in which each relative name has one owner.
* **C94 tensors and tables convert into each other** — TabConvModel: static rules and run-time conversions of table2tensor / tensor2table, pandas' null handling from its documentation; induction on columns and rows for both round trips; counterexamples for complex types and unverified schemas.
* **C95 schemas of homogeneous table constants** — TabConvModel: pandas' and Arrow's type inference of Python lists side by side; an iff characterising the lists on which they agree; counterexamples with None.
* **C96 run_sql computes its query over the tables it is given** — SqlModel: worlds of connections (temp/main views, name dict), lazily evaluated relations re-bound by name, mutable TableValues, object identities; invariant relating every value to a denotation, over all histories; a second invariant (ranked views) for success with fresh names; counterexample histories.
* **C97 which table files can be read back** — SqlTextModel: _infer_format and the accepted hints over all paths; iff characterisations by reasoning on suffixes.
* **C98 a declared schema is applied exactly** — SqlTextModel: the generated SQL text; SqlTextSpec: a recursive-descent reader of DuckDB select lists; induction on identifiers and schemas shows reading inverts printing; counterexamples for types SQL lacks.
* **C99 run_jax returns the function of its arguments** — JaxSpec: JAX export, stablehlo-opt refinement, PJRT and dtype canonicalisation as a record with laws (a concrete instance satisfies them, JaxExample); JaxModel: placeholders, keep map, casts, refinement, execution; exact success condition and value by induction on arguments; refutations hold for every library satisfying the laws.
* **C100 the compile caches of run_jax are transparent** — JaxModel: memory and disk cache with failing reads, cut files, crashes and restarts; invariant (memory holds compilations of static code, a disk file of static code is a prefix of its saved executable) by induction on histories.
* **C101 which SPU executions are connected** — SpuLinkModel: template links, runtime cache per request state, yacl Spawn numbering, brpc port, per worker history; which link an execution gets is computed for every history; two executions are connected iff their link ids agree; exact condition (same position among first uses) and refutations by induction on histories.
* **C102 SPU options survive transport** — SpuCfgModel: to_json / from_dict / effective link options over JSON values; exact set of configurations that survive, by case analysis over all values.
* **C103 SPU options are read from their documented places** — SpuCfgModel: from_dict over arbitrary JSON dictionaries; sources of every option and refusals stated with dict lookup only.
* **C104 requests with different job ids are isolated** — RequestIsolModel: a cluster as wire + mailboxes + running requests, requests as arbitrary send/receive programs, labelled steps for start, send, arrival, overflow, loss, receive, timeout, end; invariants by induction on histories (own contexts; message counts; one owner); refutations construct executions for every number of later requests.
* **C105 driver and workers agree on addresses** — CliModel: build_endpoints and its users over arbitrary texts (decimal printing and reading, split, strip); equality of the driver's and the workers' lists by cases over the sources of the endpoints.
* **C106 each worker has its own SPU address** — CliModel: the SPU part of build_endpoints; host and port by lemmas about split and decimal texts, injectivity of decimal printing.
* **C107 native OKVS decode inverts native OKVS solve** — Same model as C03; the claim is refuted by executions of the model; what remains true is proved (theorems _partial).
* **C108 native OKVS solve reports failure** — Same model as C04; the claim is refuted by executions of the model; what remains true is C04.
* **C109 Gilboa VOLE correlation with the native kernels** — Same model as C09; the claim is refuted by executions of the model; what remains true is proved (theorems _partial).
* **C110 silent VOLE correlation with the native kernels** — Same model as C10; the claim is refuted by executions of the model; what remains true is proved (theorems _partial).
* **C111 PSI marks exactly the intersection** — Same model as C12; the claim is refuted by executions of the model; what remains true is proved (theorems _partial).
* **C112 OPRF evaluation of a single item** — Same model as C14; the claim is refuted by executions of the model; what remains true is C14.
* **C113 private group-by sum over the network** — Same model as C17; the claim is refuted by executions of the model; what remains true is proved (theorems _partial).
* **C114 truncated containers raise ValueError** — Same model as C21; the claim is refuted by executions of the model; what remains true is C21.
* **C115 operations use values defined before them** — Same model as C24; the claim is refuted by executions of the model; what remains true is proved (theorems _partial).
* **C116 graph JSON round trip after add_value** — Same model as C25; the claim is refuted by executions of the model; what remains true is C25.
* **C117 peers derive the same message key** — Same model as C34; the claim is refuted by executions of the model; what remains true is proved (theorems _partial).
* **C118 object store is a map** — Same model as C36; the claim is refuted by executions of the model; what remains true is proved (theorems _partial).
* **C119 party typing is exact** — Same model as C38; the claim is refuted by executions of the model; what remains true is proved (theorems _partial).
* **C120 hand-built cluster specifications survive serialisation** — Same model as C42; the claim is refuted by executions of the model; what remains true is C42.
* **C121 in-memory SPU links are used only by their own parties** — Same model as C46; the claim is refuted by executions of the model; what remains true is proved (theorems _partial).
* **C122 cancelled and timed out requests can be recognised** — Same model as C47; the claim is refuted by executions of the model; what remains true is C47.
* **C123 job ids identify jobs** — Same model as C49; the claim is refuted by executions of the model; what remains true is C49.
* **C124 program artifacts are exact and tamper proof** — Same model as C52; the claim is refuted by executions of the model; what remains true is proved (theorems _partial).
* **C125 different graphs have different execution keys** — Same model as C53; the claim is refuted by executions of the model; what remains true is proved (theorems _partial).
* **C126 a failed JSON write leaves no partial file** — Same model as C57; the claim is refuted by executions of the model; what remains true is C57.
* **C127 the shuffle helper learns only bin sizes** — Same model as C62; the claim is refuted by executions of the model; what remains true is C62.
* **C128 every tensor operation can be run** — Same model as C73; the claim is refuted by executions of the model; what remains true is C73.
* **C129 tensor.elementwise with dynamic shapes** — Same model as C74; the claim is refuted by executions of the model; what remains true is C74.
* **C130 sym_decrypt checks the announced type** — Same model as C77; the claim is refuted by executions of the model; what remains true is C77.
* **C131 hashing of tensors of objects** — Same model as C78; the claim is refuted by executions of the model; what remains true is C78.
* **C132 session keys separate directions, suites and algorithms** — Same model as C79; the claim is refuted by executions of the model; what remains true is C79.
* **C133 homomorphic arithmetic decodes to the computed numbers** — Same model as C80; the claim is refuted by executions of the model; what remains true is proved (theorems _partial).
* **C134 fetched traced objects come from one execution** — Same model as C84; the claim is refuted by executions of the model; what remains true is C84.
* **C135 federated SecureBoost training and prediction agree** — Same model as C86; the claim is refuted by executions of the model; what remains true is proved (theorems _partial).
* **C136 dense and sparse vector column accessors agree** — Same model as C89; the claim is refuted by executions of the model; what remains true is proved (theorems _partial).
* **C137 vector columns survive transport** — Same model as C91; the claim is refuted by executions of the model; what remains true is proved (theorems _partial).
* **C138 contexts of threads are isolated** — Same model as C92; the claim is refuted by executions of the model; what remains true is proved (theorems _partial).
* **C139 accepted conversions between tensors and tables succeed** — Same model as C94; the claim is refuted by executions of the model; what remains true is C94.
* **C140 every declared type is applied** — Same model as C98; the claim is refuted by executions of the model; what remains true is C98.
* **C141 every SPU configuration survives transport** — Same model as C102; the claim is refuted by executions of the model; what remains true is C102.
* **C142 a request is not disturbed by other requests** — Same model as C104; the claim is refuted by executions of the model; what remains true is C104.
* **C143 the commands find the workers with the same options** — Same model as C105; the claim is refuted by executions of the model; what remains true is C105.
* **C144 SPU addresses obey options and do not clash** — Same model as C106; the claim is refuted by executions of the model; what remains true is C106.
* **C145 native and Python field.mul kernels agree** — Same model as C02; the claim is refuted by executions of the model; what remains true is C02.
* **C146 sparse noise positions are distinct** — Same model as C19; the claim is refuted by executions of the model; what remains true is C19.
* **C147 shuffle delivers permutations** — Same model as C33; the claim is refuted by executions of the model; what remains true is C33.
* **C148 file-system keys cannot escape the store root** — Same model as C37; the claim is refuted by executions of the model; what remains true is C37.
* **C149 asynchronous job status is consistent** — Same model as C48; the claim is refuted by executions of the model; what remains true is C48.
* **C150 tracing keeps constants** — Same model as C55; the claim is refuted by executions of the model; what remains true is C55.
* **C151 a failed put keeps the stored object** — Same model as C56; the claim is refuted by executions of the model; what remains true is C56.
* **C152 a member executes with the share it was dealt** — Same model as C69; the claim is refuted by executions of the model; what remains true is C69.
* **C153 a program's world size covers its parties** — Same model as C71; the claim is refuted by executions of the model; what remains true is C71.
* **C154 tensor.constant delivers every array** — Same model as C75; the claim is refuted by executions of the model; what remains true is C75.
* **C155 curve expressions reach the point at infinity** — Same model as C76; the claim is refuted by executions of the model; what remains true is C76.
* **C156 functions may use surrounding objects and be called anywhere** — Same model as C82; the claim is refuted by executions of the model; what remains true is C82.
* **C157 eager execution has the effects of compiled execution** — Same model as C83; the claim is refuted by executions of the model; what remains true is C83.
* **C158 tables with null vectors become matrices** — Same model as C90; the claim is refuted by executions of the model; what remains true is C90.
* **C159 table files belong to their party** — Same model as C93; the claim is refuted by executions of the model; what remains true is C93.
* **C160 table.constant has the schema it announces** — Same model as C95; the claim is refuted by executions of the model; what remains true is C95.
* **C161 run_sql queries do not influence each other** — Same model as C96; the claim is refuted by executions of the model; what remains true is C96.
* **C162 table files are read in the format they were written** — Same model as C97; the claim is refuted by executions of the model; what remains true is C97.
* **C163 run_jax accepts every argument of the declared type** — Same model as C99; the claim is refuted by executions of the model; what remains true is C99.
* **C164 concurrent requests on an SPU device are isolated** — Same model as C101; the claim is refuted by executions of the model; what remains true is C101.
* **C165 Silver code matrices are valid and sparse** — SilverCodeModel writes out the generator with the random source and linspace as parameters (laws in SilverCodeSpec), scipy's COO to CSR conversion, and the check over exact fractions. Induction over rows and over the top-up loop; chained with the encoder theorem of C06.
* **C166 the dense LDPC encoder is a reference for the sparse one** — refuted: exact characterisation of the dense encoder (lowest bit of each limb) proved by distributing and over xor; a message on which it differs; with all-ones entries it is exact.
* **C167 syndrome decoding returns few errors and finds single ones** — the greedy choice characterised as the first column of maximal reduction; induction over the rounds.
* **C168 syndrome decoding explains the syndrome** — refuted by a two-row matrix on which the decoder oscillates for every number of rounds (induction), and, for blocks, because every returned row is all ones or zeros.
* **C169 expanded seeds are streams** — AES-128 written out bit by bit (SeedExpandModel on AESRound, checked against the FIPS-197 vector), its inverse proved (S-box by enumeration of bytes, MixColumns by linearity), so encryption is injective.
* **C170 expanded seeds hide the seed** — refuted: the inverse cipher with the library's constant key recovers the seed from any block; one known block of a masked secret reveals the rest; the output is not the documented AES-CTR.
* **C171 field operations on well-formed arrays read only their arguments** — FieldOpsModel: the announced types and the implementations as readers of flat buffers, a read past the end being a distinct outcome; the arithmetic kernels are parameters (their behaviour is in GF128Model, OKVSModel, LDPCModel, SeedExpandModel). Proved for all well-formed arrays.
* **C172 arguments accepted when tracing are safe at run time** — refuted on the same model: field.mul with a shorter right-hand side, aes_expand of a one-dimensional seed, decode_okvs of a one-dimensional store and ldpc_encode with a column outside the message read out of bounds; aes_expand of (n, 4) words has a shape other than announced.
* **C173 an evaluation answers with the parties' results or a party's failure** — EvalDriverModel: a FIFO thread pool over the message passing of NetModel, collection by FIRST_EXCEPTION (simulator) or in rank order (HTTP). A pool execution projects to a network execution plus starts; with one thread per task a stuck pool has started everything, so it has reached the network's unique final state.
* **C174 evaluations from several threads complete** — refuted on the same model: an interleaving of two submissions that fills the pool with tasks waiting for tasks still in the queue.
* **C175 a failed evaluation is reported and can be followed by others** — refuted: collect shuts the mesh down after a failure, so every later evaluation and fetch raises; over HTTP a rank 0 waiting for the failed rank hides the failure for ever (no time-out) or behind its own time-out.
* **C176 attesting a quote gives back the quoted key** — TeeQuoteModel: quotes, their byte encoding with Python slice semantics, attest. Proved by computing through the encoding for arbitrary byte strings.
* **C177 attest accepts only quotes made by quote_gen for the expected curve** — refuted (mock backend): forged, truncated and wrong-curve quotes are accepted, tracing accepts anything, get_measurement has no implementation.
* **C178 random bits and tensors are uniform** — RandomModel: the values as functions of the bytes of os.urandom; uniformity stated as equal numbers of preimages among all byte strings, proved by counting.
* **C179 random scalars are uniform non-zero scalars** — partial: below the order, one or two preimages each; refuted: exactly the scalars below 2^256 - order have two, zero is one of them.
* **C180 equal types with equal column orders hash equally** — split off C23: TypeHash.same_order_eq, equal types with the same column order are the same type, so every hash agrees.
* **C181 fetch of a PPU or TEE object returns its value** — split off C45: DeviceModel.fetch on objects of PPU and TEE devices.
* **C182 table batches are complete when sizes fit** — split off C50: induction over the source batches of the reader state machine.
* **C183 multi-table writes never misalign rows** — split off C51: lock-step reader, prefix invariant over the rounds; completeness for equal chunk sizes.
* **C184 sparse aggregation of distinct sources within a row** — split off C63: sum invariant over the rotations dictionary for NoDup requests within rows.
* **C185 bucket aggregation for powers of two** — split off C64: doubling law at bucket starts for power-of-two bucket counts.
* **C186 sessions while contexts live** — split off C70: invariant of the session cache over all histories in which addresses determine contexts.
* **C187 SecureBoost splits of the active party are the best ones** — split off C87: histogram gains are gains over samples, argmax over features and thresholds, induction over levels.
* **C188 disabled logging is silent** — LogModel: the mplang logger and Python's handler lookup (levels, propagation, lastResort); all call histories.
* **C189 a log record is written once to every destination asked for** — refuted: repeated calls multiply every record (n calls, n copies), stream=False with force lets warnings reach stderr through Python's last resort, failing calls change the set-up.
* **C190 a fresh or forced set-up of logging delivers once** — split off C189: case analysis over all arguments from any state.
* **C191 get_logger stays below mplang** — refuted by names such as mplang_app; exact characterisation.
* **C192 a program on an SPU device computes its functions** — SpuRunModel: _device_run on SPU devices (moving arguments with the transfers of DeviceModel, run_jax tracing, exec_impl on the parties' runtimes with their variable stores); SpuRunSpec: the laws of the SPU library and the plain program; induction over the calls with the invariant that every value is shared among the members in rank order.
* **C193 members' tensors as public arguments of spu.run_jax** — On SpuRunModel.exec: a non-share argument always makes the execution raise although tracing accepts it (refutation).
* **C194 messages between HTTP workers arrive unchanged** — HttpWireModel: _do_send, the route PUT /comm/{key} with httpx URL splitting, dot segments and quoting, uvicorn decoding, the Starlette pattern, and the two body formats on top of SerdeModel/BinModel/JsonText; exact characterisation of the keys that survive; composition with C20/C21 and CtxModel.
* **C195 any job ids can be used over HTTP** — On HttpWireModel: ids with a slash cannot send, ids with a hash sign share one key, escaped ids land in other jobs (refutations for all such ids).
* **C196 SecureBoost is gradient boosting** — On BoostModel (the boosting loop on the trees of TreeModel, logistic functions as parameters): induction over the loop, the predictions kept are those of the trees so far; t_proper and C86 for the last two parts.
* **C197 merging traces keeps every event and keeps parties apart** — TraceMergeModel.v: the file-name pattern, renumbering of one event (with every exception case), the loop over files, the output; JSON values as in SerdeModel. Proved per event by cases, per file by induction; the pattern is proved equivalent to a statement about the name.
* **C198 a merged trace attributes every event to the party that executed it, once** — TraceMergeModel.v: one tracer as a list of events with the (unrecorded) executing rank and the files saved so far; histories of Log/Save actions. Refuted for every history: all events logged before a save belong to the saver; later jobs repeat earlier events; HTTP workers have no rank; merging twice collapses the ranks.
* **C199 Arguments reach operations and traced functions unchanged in value** — ArgModel.v models tree_map as flatten/map/unflatten (MorphModel), Primitive.bind and Tracer.run as one delivery each, simp.constant and put over an inductive of host data; proved: every argument arrives pyeq to the given one with leaves lifted, exactly unchanged iff its dicts are in key order (spec in_order), the dispatch and refusals of simp.constant and put, and that each name of a dict denotes its column in the table (with the Arrow typing of TabConvModel).
* **C200 Tables made from dicts keep the order of the columns** — refuted: jax.tree_util rebuilds dicts in key order at every bind, so dict columns and keyword arguments come out alphabetically; proved what does hold (always ascending; kept when written ascending) and the permuted tensor.
* **C201 Every value given to an operation takes part in it** — BindModel.v models bind_primitive over generic rules and implementations; proved: objects all take part in order, fixed-arity operations refuse host values, list operations compute what they would on the objects alone; refuted with concat (TensorModel): a host array is silently dropped.
* **C202 Every operation that can be traced can be executed** — RegistryModel.v lists every primitive of the dialects and every def_impl of the backends, load_builtins over an arbitrary set of importable modules and the interpreter's dispatch; proved for all registration sequences and all import failures; refuted: 12 traceable operations (all of phe, scatter, shuffle_dynamic, get_measurement) have no implementation, and earlier operations are executed before that is noticed.
* **C203 The profiler accounts for every execution once** — executions as trees with durations; proved: summary = executions that returned, with sum/min/max, for every tree; leaf total bounded by wall time when recorded operations do not nest; refuted for elementwise and func.call.
* **C204 a program run by all workers ends as it means** — SpmdModel: one worker's handlers over the network of NetModel, whole programs (syntax of SimpModel). SpmdSpec: big-step meaning without messages. Proof: steps lift under continuations, C32/C33 give one schedule per communicating operation, confluence of the network (NetProofs) gives all schedules; confinement through SimpModel.run_region and C38. Exceptions inside local functions not modelled.
* **C205 shuffles after a loop deliver what they name** — Same model; refuted by a two-party program (the stale message of an extra turn is delivered to a later shuffle), for every schedule.
* **C206 Crashes and lost messages never make another party return a wrong result** — FaultModel adds two kinds of fault (a party dies, a message in flight is lost) to the network steps of NetModel. Any run with faults is followed by a fault-free run in which every party has gone at least as far (a simulation: the surviving parties' programs, counters and received messages are those of the fault-free network), so by confluence a party that returned has the value of the fault-free run (FaultProofs.returned_despite_faults); with C204 that value is the one of the program's meaning (C206_survivors_are_right) and there is none when the predicate disagrees (C206_disagreement_stays).
* **C207 Static types of table programs describe the run-time tables** — TabProgModel composes TabConvModel: the static rule and the run-time implementation of every table operation, over a list of operations; SQL, files and JAX are arbitrary partial functions. By induction over the program (TabProgProofs.run_sound, run_goes): values of types declared right keep their types, with the per-operation lemmas of C94/C95; and every operation of an accepted program succeeds under goes_through.
* **C208 Declared table types are checked** — Refuted on the same model: run_sql passes any result on under the declared out_type, a wrong row count of a read schema is only noticed by table2tensor, and write is typed as a table but returns None.
* **C209 A program of device calls computes what its functions compute, wherever its values live** — DevProgModel writes _device_run, put, _d2d with the session cache and device inference as a machine over programs of device calls, on top of the transfers of DeviceModel and the SPU executions of SpuRunModel; DevProgSpec says what a program means on plain values tagged with devices. A simulation (every cached session has one key on both sides; every object lies on its device and stands for its value) is kept by every transfer and call; with exact arithmetic the meaning is the plain Python program.
* **C210 A dynamic party call runs exactly where its arguments are** — DynCallModel writes the worker's handler (evaluate the region with whatever is there) over local graphs. The parties that hold everything get the function's outputs (partial); refuted for the others: an argument that is not used does not stop a party, and one that is used makes the whole call fail.
* **C211 Secrets stay on their path through a program of device calls** — Modelled: every object that is made or delivered while a program of device calls (C209) runs: the steps of its transfers, the handshakes of sessions that are made, the results of calls. Messages inside an SPU runtime are not objects and are left out. Proof: two runs side by side; objects of statements the secrets do not get into are equal (a statement is a function of the state and of the objects it uses), the sessions and call counters of the two runs are equal after every statement, and all objects of the other statements lie on members of the devices on the path (confinement of transfers, C44), invisible elsewhere. Also proved: every result is among the objects seen.
* **C212 Only routed values reach a party** — On the model of C204 (every worker runs its own copy over the network) and of C206 (faults). Spec: all routings written in the program, the relation 'values can get from s to r over them', two inputs the same at a set of parties. Proof: induction over the meaning of a program, with the other run inverted, for any set of parties no routing brings values into; predicates and loop conditions are uniform, so one party of the set decides branches and turns alike; then C206 for executions.
* **C213 Device programs on the network** — DevTraceModel gives, function by function, the SIMP operations that tracing binds for put, device calls, moves and TEE sessions, in the syntax of SimpModel, with positions instead of values (PPUs and TEEs only: what an SPU computes is not a local function of one party). Spec: meaning of C209, what a rank should hold, the devices a program names. Proof: running the traced operations step by step follows the objects of DevProgModel (positions hold what objects hold, sessions at hand agree, value types agree); then C209 for the values, C204 and C206 for the executions. Bystanders: none of the operations names the rank, so its copy computes without sending or receiving.
* **C214 Packed encrypted histograms keep the features apart** — SGBPackModel follows sgb.py 291-519 for all nodes and features: bucket totals per feature, masking to region starts, rotation by the feature's number, addition, batching by stride, decryption and unpacking, on the slot-level BFV of BFVModel. Slot p of a packed ciphertext is shown to be the sum over the features k of the batch of the slot that a rotation by -k brings there, masked to region starts; when no region's first k slots reach over the middle (rows_respected) exactly one term survives, so unpacking returns each feature's own histogram. Power-of-two bucket counts satisfy this always. That the decrypted vectors are a function of the single histograms gives the confidentiality statement, without that assumption. Bucket counts that reach over the middle are refuted (C214_middle_refuted); the default ring with ten buckets does so from the second feature on.
* **C215 A local cluster is the same by options and by generated file** — CliGenModel adds cmd_config_gen (cli.py 186-223) to the model of the command line (CliModel). By options: endpoints, ports, SPU addresses and their distinctness follow from decimal text being injective. By file: build_endpoints of the generated file is computed for every world size and ports and compared with the option path field by field; run finds the workers because the generated node names differ. Refuted: the SPU base port is not written to the file, and --endpoints leaves the SPU addresses on the local machine, one per default worker.
* **C216 Requests and SPU links never use each other's message keys** — The key strings of a request are those of CtxModel for its job id and any history of spawns and exchanges; those of SPU links are spu: plus any tag (KeySpaceModel). Every key of a request is its job id followed by a dot or a colon, so two ids of which neither continues the other with a dot or colon (in particular different ids without these characters) give disjoint keys, and any id apart from spu gives none of an SPU link. Refuted for other ids: a job named like another job's spawned context, and a job whose id starts with spu and a colon.
* **C217 The text of a graph determines its structure** — The printer without attributes, with and without types, as functions from graphs to lines (PrintModel, PrintTypesModel; the text of a type is the one modelled for execution keys). The theorems are injectivity for any indentation on graphs whose names have no blanks, commas, brackets, equality signs, colons and line breaks (all names the tracer makes are such) and, with types, whose types have no shares, no quotes in column names and no brackets in labels; proved by cutting each line at its first special character and by induction on nested graphs, the lines that follow a nested part being told from the lines that could continue it. Refuted for arbitrary names (a comma in a name) and for secret shares, whose schema is not printed.
* **C218 Keys stay with their holder when values are sent** — to_json and from_json of the BFV, SPU and TEE values with the class dispatch of serde (RtWireModel), over the exact JSON text and base64 of JsonText and Base64Model; TenSEAL's serialize and context_from are a pair of functions of which the second inverts the first. Theorems: what arrives for every kind of value, independence of the sent text from keys, and that relaying gives the same text. Refuted: a ciphertext as it was (its context loses the public keys).
* **C219 bitcast reinterprets the same bytes** — bitcast over JAX's view, modelled on element bits (BitcastModel; view is not in /repo and is trusted as described). Memory is specified apart from it, as the little-endian bytes of each element. The bytes stay because joining and splitting elements commute with writing them out (induction on widths and groups); the round trip follows as bytes, type and shape determine a tensor. Refuted: the type asked for when JAX's 64-bit mode is off, as mplang leaves it; and that equal byte totals suffice, as the docstring says.
* **C220 evaluate returns the share of samples that were classed rightly** — evaluate over the prediction of BoostModel, with numpy's broadcasting in the comparison (BoostEvalModel). The accuracy is stated with any duplicate-free list of the rightly classed samples, whose length it must be; proved by induction on the samples. Refuted: labels given as a column are accepted and every prediction is compared with every label (the answer stays the same under any permutation of the labels).
* **C221 slice_tensor selects what Python slices select** — slice_impl of TensorModel (with CPython's PySlice_AdjustIndices) against a description of slices by membership and order that does no clamping of the end. Proved per axis with division lemmas, then by induction on the axes; the description determines the axes (C221_axis_unique). Added after a wrong clamp in the model survived, as C73 spoke of shapes only.
* **C222 Reshape, transpose, concat and gather move elements and change none** — The run-time functions of TensorModel against descriptions by index and, for reshape, against a recursive row-major listing that uses no division. Proved with ravel and unravel being inverse, by induction on shapes and on the parts before the one looked at. C72 and C73 speak of types and shapes only.
* **C223 The structure checks accept lists and morph structures, and no more is promised** — Model num_leaves, is_treedef_list and validate_morph_struct (func_utils.py:31-61, 126-151) over the pytrees of MorphModel in TreeListProps; show by induction that the leaf count of a structure is the number of leaves of the value; the docstring's 'all children are leaf nodes' is refuted, and so is that validation makes var_demorph total.

## Trusted base

What has to be believed for the theorems to say something about mplang:

1. **The kernel.** Coq 8.16.1's kernel, including the `vm_compute` reduction machine (used for closed
   computations: examples, tables of primitives, AES and GF(2^128) constants). `native_compute`,
   plugins, functors, module types, kernel switches and axioms of our own are not used.
2. **Assumptions.** `Print Assumptions` stands below every property theorem (in `*Props.v`, printed
   when the file is built). All of them answer "Closed under the global context": no theorem uses an
   axiom, neither of the standard library nor of another one. `coqchk` lists the seven constants
   `Coq.ssr.ssrunder.Under_rel.*` for the whole context: they are the opaque parameters of the
   standard library's `under` tactic, loaded together with stdpp; no theorem here depends on them.
   Everything a theorem supposes of a library is a hypothesis in its own statement.
3. **The reading of /repo.** The code is not executed. Every definition in a `*Model.v` cites the file
   and lines it models and what it simplifies. Fidelity was tested by mutation in both directions: see
   "Testing the theorems".
4. **Libraries outside /repo.** Written from their documentation or source, as listed below, or
   parameters with stated laws.

### What is modelled, and on what terms

| part of the code | model files | terms |
|---|---|---|
| `edsl/typing`, `serde`, `program`, `graph`, `tracer`, `primitive`, `context`, `registry`; `tool/program` | Serde, Base64, Json*, Bin, Program, Graph, Trace, Bind, Arg, Scope, Ctx, ExecKey, TypeHash, Registry | JSON text is concrete (JsonText), the decimal text of floats, gzip, tar and UTF-8 are abstract; floats are 64-bit patterns; `jax.tree_util.tree_map` is flatten/unflatten as documented (Morph, Arg); the tables of primitives and implementations were copied from the source with Python's `ast` |
| `runtime/interpreter`, `object_store`, `value` | Sched, Eager, Trace, Store, TabFile, TraceMerge | handlers are functions; POSIX file operations with symbolic links where they matter; MD5 collision free; disk errors left out |
| `dialects/simp`, `libs/collective`, `simp_worker/*`, `simp_driver/*`, `backends/channel` | Simp, Coll, Net, Mailbox, Fault, Spmd, Ctx, Request, RequestIsol, Job, EvalDriver, HttpWire | interleaving semantics: any order of steps and deliveries; local functions opaque and total in Spmd (an exception is a fault of Fault); workers evaluate synchronously, as both kinds of workers are created; `verify_uniform` on; fuel bounds loop turns only; ThreadPoolExecutor is a FIFO pool and `wait(FIRST_EXCEPTION)` as documented; a fault is a crash, a raise, a timeout or a lost message, never a duplicated or altered one |
| HTTP between workers | HttpWire, Cli | httpx URL parsing, uvicorn decoding and Starlette routing from their sources; TLS, proxies and the 65536-character limit left out |
| `libs/device`, `dialects/spu`, `backends/spu_*` | Device, SpuRun, DevProg, SpuCfg, SpuLink, Cluster | Io, compile and Runtime.run are parameters with the laws of SpuRunSpec.spu_laws (SpuRunExample is an instance that checks ranks); yacl's `Spawn` and brpc listening from yacl's documentation; DevProg: one context, auto-transfer on, arbitrary leftover SPU variables |
| `dialects/crypto`, `tee`, `backends/crypto_impl`, `tee_impl` | Crypto, TeeQuote, Random | AES-GCM, X25519, HKDF, SHA-256, secp256k1 are parameters with the laws of CryptoSpec / OTModel; os.urandom is an arbitrary list of bytes; validity of UTF-8 is a parameter; the TEE is the mock one, as in /repo |
| `dialects/phe`, `bfv`, backends | PHE, BFV | LightPHE: laws of PHESpec.lib_laws; CPython's float(int) written out; SEAL symbolic, noise budget not modelled |
| `dialects/tensor`, `_jax_utils`, `backends/tensor_impl` | Tensor, Const, Jax | NumPy functions from the NumPy manual; JAX export, stablehlo-opt and PJRT are a record with the laws of JaxSpec (JaxExample is an instance); `jax_enable_x64` on where 64-bit tensors appear |
| `dialects/table`, `backends/table_impl`, `extend/arrow` | Table, TabFile, TabConv, TabProg, Sql, SqlText, Vec | pyarrow, pandas, DuckDB (views, lazy relations, case-insensitive names, select lists) from their documentation; TabProg: SQL, files and compiled computations are arbitrary partial functions, tensors of rank 2 |
| `dialects/field`, kernels (Python and C++) | GF128, OKVS, OKVSOpt, AESRound, SeedExpand, FieldOps, LDPC | bit-exact; AES checked against the FIPS-197 vector; C++ int overflow for sizes of 2^31 and more left out; FieldOps: arithmetic abstract, buffers concrete |
| `libs/mpc/*` | OT, PSI, VOLE, Cuckoo, SilverCode, Perm, Group | both parties run the same build; RandomState and linspace are parameters of SilverCode, fractions exact; transport is the identity (C33, C40) |
| `libs/ml/sgb` | SGB, Tree, Boost | floats are exact rationals; logistic functions parameters; the encrypted histogram is the plaintext one in Tree (what the encrypted computation delivers: C65) |
| `cli`, `utils/logging`, `utils/func_utils` | Cli, Log, Morph | int(text): decimal digits only; formats of log lines left out; Python's handler lookup from its documentation |

### What is not modelled

`edsl/printer` (text for people), floating-point rounding in SGB and SPU, time
(timeouts are faults that may happen at any moment), memory limits and RecursionError, the IREE path
(the tracer never selects it), the SPU dynamic-shape path, SPU and SEAL internals, the
patching done by `_jax_utils.patch_spu_jax`, `tensor.bitcast`, the constructors of
`extend/arrow/vector.py:544-590`, `simp.peval`/`make_simulator`, and process management in the CLI.

### Testing the theorems

`seeded/LOG.jsonl` lists the edits of the model that were tried, one wrong program per line, with the
theorems that failed and the ones that were tightened because they did not. Two kinds: realistic bugs
written by hand (wrong boundary, missed case, swapped argument, dropped update), and automatic
single-token edits of model definitions. Survivors were either equivalent programs or edits of
branches no claim is about, or led to a stronger theorem (`tightened`).
