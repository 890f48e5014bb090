# Formal model of indradb: design

Source: /repo (read as text, never built or run). Proof assistant: Coq 8.16.1,
standard library only. Build: `cd rocq && coq_makefile -f _CoqProject -o Makefile && make -j4`.

## 1. Shape of the model

Layers, bottom up (each definition cites the /repo file and lines it models):

| file | contents |
|---|---|
| `Base.v`, `OMap.v` | bytes, byte order, UTF-8 validity, outcomes (`Ok`/`Err`/`Panic`), canonical sorted maps (BTreeMap/BTreeSet/column families) |
| `Types.v` | Uuid, Identifier, Vertex, Edge, Query and outputs (lib/src/models), builder functions |
| `Json.v` | models/json.rs: hash stream, comparison, equality (f64 arithmetic exact on bit patterns) |
| `Util.v` | lib/src/util.rs: key components, `build`, readers, `next_uuid`, `extract_*`; Identifier validation |
| `Db.v` | lib/src/database.rs: the `Transaction` trait as a record of functions, `query`, `Database` methods |
| `Mem.v` | lib/src/memory/datastore.rs, with a `debug`/`release` flag |
| `Rdb.v` | lib/src/rdb/{managers,datastore}.rs over eight byte-keyed column families and atomic write batches |
| `MsgPack.v`, `Image.v`, `Persist.v` | the image of an in-memory database: rmp-serde encoding, serialised form of the datastore, sync/reopen as file-system steps |
| `Deploy.v` | a deployed server process: requests, restarts and crashes over a path |
| `DeployPlugins.v` | the same with plugins that call `sync` and kills at any moment of a request |
| `Builders.v` | models/queries.rs: builder methods, direction text |
| `JsonText.v` | serde_json writing and reading property values as text |
| `F64.v`, `FloatText.v` | f64 rounding; the digits of floats: ryu's writer, serde_json's number reader |
| `RdbProg.v` | the RocksDB calls again, one read or write at a time, with the locks they take |
| `PropsCases.v` | concrete cases meeting the hypotheses of the theorems in `PropsMem.v` and `PropsRdb.v`; the other Props files have theirs next to the theorems |
| `Conc.v` | threads: mutex schedule for memory (library calls or server requests), interleaved steps for RocksDB |
| `UuidV1.v` | lib/src/util.rs `generate_uuid_v1` (16-19, 133-137) and the uuid crate's generator |
| `RdbDoom.v` | RocksDB executions cut off at any moment |
| `Killable.v` | an object behind one lock whose process is killed and restarted at any moment |
| `RdbCrash.v` (first half: lemmas; `event_step`: crash model) | crashes of the RocksDB datastore |
| `Proto.v`, `Server.v` | proto/indradb.proto, proto/src/{convert*,server,client}.rs |
| `Wire.v`, `Transport.v` | prost 0.13 wire format of indradb.proto (encoding, decoding, recursion limit), tonic's 4 MiB receive limit, calls as bytes |
| `Schema.v`, `Service.v` | the published interface, proto/indradb.proto (specification side) |
| `ServerConc.v` | a server over RocksDB with interleaved requests: arrival, library call, its return, response |
| `Startup.v` | the command line, starting a server, opening a RocksDB directory, a machine with several servers |
| `Errors.v` | texts of errors, codes and messages of statuses |
| `PluginProg.v` | plugins as programs over the `Transaction` trait; sessions of a server with plugins; hello_world |
| `Cli.v` | client/src/main.rs: commands, uuid 1.12 text parsing |
| `Plugin.v` | plugins/host/src/{util,decl}.rs, plugin loading and dispatch in proto/src/server.rs |
| `Spec.v` | the independent specification: abstract graph, pointwise updates, declarative query semantics (`evals`/`fails`), `resolves` |
| `RdbSpec.v` | what RocksDB does instead where it deviates (`r_apply`) |
| `Claims.v`, `Nav.v`, `JsonOrder.v` | further specifications: what each update changes and leaves alone; order and hash contracts |
| `*Facts.v`, `QueryTrust`, `MemRefine`, `MemHist`, `MemSame`, `RdbRep`, `RdbWrite`, `RdbPut`, `RdbRefine`, `RdbGraph`, `RdbHist`, `RdbAlone`, `RdbConc`, `RdbLive`, `RdbConcInv`, `RdbCalm`, `RdbSched`, `RdbFoot`, `RdbApart`, `RdbCommute`, `SpecFoot`, `RdbSerial`, `Stages`, `Effects`, `Agree`, `Clean`, `Utf8` | lemmas |
| `Examples.v` | concrete data for the examples |
| `Props*.v` | the property theorems and, beside them, examples that meet their hypotheses |

Style: total executable Gallina. `&mut self` methods return the new state; `Result`
is `outcome` data; a panic is the explicit value `Panic`. Iterators of `Result<T>`
are lists of outcomes. Loops are structural recursion or folds.

How to read a theorem: `mem_run dbg h = Some m` says that the calls `h` (each with its own
HashMap-order oracle) ran without panicking on a fresh in-memory database and left `m`;
`rdb_run H enc dec h` is the RocksDB database after the calls `h`, each with its own environment
(`wok`: does the write succeed; `iord`: HashSet order). `gof m` and `rgof dec s` are the abstract
graphs stored in them, defined without reference to how calls work. `db_get`, `exec` are the API.

## 2. Oracles and assumptions (section variables or theorem hypotheses; no axioms)

* `DefaultHasher` (SipHash-1-3): a function `H : list byte -> 64-bit number`, arbitrary.
* serde_json text codec: `enc`/`dec`, arbitrary functions in the RocksDB and protobuf models;
  theorems say which values must round-trip (`good_history`, `lossless`). `JsonText.v` models
  serde_json 1.0 itself (string escapes, numbers, nesting limit 128, no `float_roundtrip`), with
  the float formatter and reader as parameters, and `PropsText.v` instantiates the theorems. `FloatText.v`
  defines these two from the published sources of ryu 1.0.17 and serde_json 1.0.135 (Cargo.lock; the sources
  are not in /repo), cross-checked against a Python rendering on 39 doubles (text and value read back).
* HashMap/HashSet iteration order: an arbitrary permutation, different at every call.
* `HashMap<Json,_>` lookup: keys match when they have the same hash stream and compare equal
  (accidental 64-bit collisions of different streams *inside* the std HashMap are not modelled).
* RocksDB: a column family is an ordered byte map, a write batch is applied atomically and in
  order, a single read or one iterator sees the database at one moment; flush/compaction do not
  change contents. After a crash the surviving batches are a prefix of those written, containing all
  written before the last `sync` that returned `Ok`. (rdb/datastore.rs `sync` compacts column
  families and calls `flush`; the Rust binding's `compact_range` cannot report errors, so this is an
  assumption about RocksDB rather than a consequence of the code.)
* Filesystem: rename is atomic; writes may fail at any point; a process crash keeps what was written.
  Power loss is outside the model of `sync` for memory databases (the code never calls fsync).
* rmp-serde: the encoding is modelled (`MsgPack.v`); lengths below 2^32 and nesting below its depth
  limit are hypotheses (`fits`).
* Intern<String> is ordered by string content; Unicode `is_alphanumeric` is an oracle predicate on
  code points.
* Mutex/RwLock: mutual exclusion; a panic while the memory datastore's mutex is held poisons it.
  Poisoning of the RocksDB RwLock is not modelled (no RocksDB call panics: C20), nor is fairness.
* UUID v1 generation: an oracle yields the id.

Not modelled: performance, memory exhaustion, HTTP/2 framing and connection loss (other than
broken bulk streams), real threads and file descriptors, dynamic library loading itself,
the CLI argument parser and `main` functions, serde's unchecked `Deserialize` for Identifier (only images
written by the library are read), `usize` overflow of collection lengths.

## 3. Plan per property

| id | modelled as | proof |
|---|---|---|
| C01 | every history of operations over Mem, any order oracle, both builds | invariant `endpoints exist` by induction over histories; lift to query outputs. Edge index leaves checked separately |
| C02 C03 | step of Mem and Rdb vs. abstract graph | refinement of each op (`abs (step s) = spec (abs s)`), both backends |
| C04 C06 C07 | abstract graph updates stated pointwise (what goes, what stays) | refinement, Mem exact; Rdb edge delete under "outbound exists" |
| C05 | Rdb delete_vertices | expected refuted: inbound edges are deleted un-reversed. Prove the outbound half, refute the full claim |
| C08 | inductive relations `evals`/`fails` on the abstract graph | generic theorem: any transaction whose primitive reads agree with the graph makes `query` agree; instantiate Mem and Rdb |
| C09 C10 C11 C12 C13 | corollaries over `query` of any backend | paging by induction on the vertex list; include/count/builder typing by induction on queries |
| C14 | Mem index vs stored properties, debug build | invariant; release refuted |
| C15 | Rdb index | invariant without bulk duplicates; refutations for bulk duplicates and colliding hash inputs |
| C16 | both backends | invariant on the set of indexed names |
| C17 | Mem panics | exact characterisation of panics; refuted in general by maximal UUID (all builds) and orphan overwrite (debug) |
| C18 C19 C36 | Util/Types | byte-list lemmas, UTF-8, lexicographic order |
| C20 C21 C22 | Rdb | invariants over histories; C21 also over arbitrary interleavings of atomic batches |
| C23 | a running database as (disk, state, batches known durable); calls, syncs and crashes in any order | invariant over event lists, the log determines the data |
| C24 | sync as a sequence of filesystem steps with failures and crash points; concrete msgpack codec | crash-point case analysis, round-trip of the image codec; silent flush failure refuted |
| C25 | bulk vs sequence | Mem equal by definition of the default method (proved through histories); Rdb refuted, partial for fresh items |
| C26 | both | outcome analysis of each operation |
| C27 | threads + mutex small-step | simulation: lock order is a linearization respecting real time |
| C28 | Rdb interleavings (RdbProg, RdbSerial, RdbFoot, RdbApart) | refuted by explicit schedules; linearizable when overlapping calls have disjoint footprints (Foot.v: what each API call reads and writes; RdbFoot.v proves that the programs stay within them), when no write changes what another call has read, or when every call makes one access |
| C29 | both models run on same history | partial: agreement on the fragment where both refine the spec, up to edge order; refuted in general |
| C30 C31 C32 | Json | structural induction; refutations by computed witnesses |
| C33 C34 C35 | Proto/Server | induction on queries/messages; server refinement |
| C37 C38 | Plugin | induction on schedules / library lists |
| C39 | Rdb/Mem index_property | idempotence, reopen; retry after failure refuted |
| C40 | Db | direct from C02 |
| C41 | edge index lookups of both backends | invariant `no_orphans`; refuted in release builds and after bulk inserts |
| C42 | serde_json text, `JsonText.v` | the reader inverts the writer by induction on values with a depth budget; prefix-freeness |
| C43 | query evaluator for any `txn_ops`, builders, `extract_*` | induction on queries; `result_kind` is the separate specification; witnesses for answerability are databases with the consulted names indexed |
| C44 | pipes over both edge tables, `Nav.v` | `reads_ok` of both backends; sorted lists with the same members are equal; RocksDB inbound refuted |
| C45 | create calls after any history | endpoint and ownership invariants; refuted on RocksDB (inbound) and in release builds (edge properties) |
| C46 | `Cli.v` over client and server; clap and output text not modelled | `asks` and `shows` are the specification; case analysis on commands, C35 and C43; sessions by induction |
| C47 | `Wire.v`, `Transport.v`: bytes of every message, decoder with recursion and size limits | decode∘encode by induction on messages and on fuel (`WireFacts.v`); lift to calls over C35; limits stated with `stages`, `levels` and message lengths |
| C48 | `PluginProg.v`: program trees over the trait's reading and writing methods, run by `execute_plugin` | induction on the program gives a history, induction on the session composes them; C01, C20, C21, C22 then apply |
| C49 | requests and responses as the operations of `Conc.v`'s lock (generic in operations and results; requests that touch no state may skip it); `run_among`: others' calls between a RocksDB plugin's method calls; `ServerConc.v`: request and response events around the library calls of `RdbProg.v`'s interleaved execution, log of both | the generic linearizability proof; C48 for the states; a concrete interleaving for the refutation; RocksDB: the library's explanation (C28) is carried to the requests, and requests that make no call are inserted where real time allows; every library execution is one of a server, which gives the counterexample and the cases |
| C50 | `Deploy.v`: the server over `Persist.v`'s disk (requests, restarts, kills during sync) and, in `PropsDeploy.v`, over `RdbCrash.v`'s node; spec `kept` (which requests' effects are held); `DeployPlugins.v`: plugins that call sync, kills between any two calls, and the library calls (`library`) the server's life amounts to | twins (C24) carried through request handling and plugins; each request as the list of calls it makes, then C23; for syncing plugins a simulation by Persist.v's sessions |
| C51 | `Builders.v`: the builder methods of models/queries.rs as functions on records with settings; programs of methods as the syntax `chain`, translated by `compile`; spec `selects` (what the method names say, on the abstract graph, ignoring limits), `limits`, `looked_up` | induction on the program over `reads_ok`, one stage at a time (`Stages.v`), then C08's refinement of each backend |
| C52 | `PropsAlgebra.v`: laws as equations between answers of two queries (records `query_laws`, `lookup_laws`), with small list operations (`join`, `first`, `of_type`) as the specification | each stage is a function of the inner answer (`Stages.answer_stage`); filters are list filters with a test read from the index; hops via `pipe_vertices_ok`/`pipe_edges_ok`; lookups by comparing the listings on the abstract graph |
| C53 | `Schema.v`, `Service.v`: proto/indradb.proto as data; serializations as inductive relations independent of prost's code (any field order, padding, explicit defaults, unknown fields); requests and responses by field name. `SchemaFacts.v`, `SchemaMessages.v`, `PropsSchema.v` | decoder: the fields it sees are the fields that occur, each component of a message depends on its own field (`comp1`-`comp4`), induction on queries; encoder: each written field is a field of the schema (`writes`), contents compared field by field |
| C54 | `Retry.v`: `repeatable` (which calls), `again` (what the second returns), both on abstract graphs; `PropsRetry.v` | monotonicity of queries under deletion (`evals_sub`, sizes by `evals_most`), invariance under property changes a query does not look at (`evals_alike`), idempotence of each update; lifted to both backends by their refinement theorems; induction over attempts; refutations by computation |
| C55 | `Foot.v`: footprints of calls (`alters`, `depends`, `apart`), stated for the API; `PropsCommute.v` | RocksDB: every program reads and writes within the footprint (`RdbFoot`), batches on disjoint keys commute (`RdbCommute`); memory: lockstep of states that agree on the footprint, and frame, index entries included (`MemFoot`); `SpecFoot`: the same on abstract graphs |
| C56 | `RdbFault.v`: managers and transaction again with reads that can fail (unreadable keys, iterators breaking off), over the same interpreter; `PropsFault.v` | a relation between the failing and the healthy datastore (equal, or an error), preserved by every iterator adaptor, the interpreter and the batch builders (`RdbFaultFacts`, `RdbFaultStep`); histories by induction |
| C57 | f64 arithmetic `F64.v`, ryu's writer and serde_json's number reader `FloatText.v`; `PropsFloat.v` | rounding to nearest even specified and proved; ryu's output characterised (shortest, at most 17 digits); exact cases by exact arithmetic, the rest by an error analysis of the reader's roundings (`FloatClose`, `FloatTotal`); whole values by simulating the reader with one that knows what was written (`FloatValues`); arbitrary number texts, truncated digits and exponents beyond 32 bits in `FloatAny`; the text written is the shortest and nearest decimal of the float (`PropsShort.v`, C57_shortest: maximality of the search's power of ten, and the two neighbours of the quotient; C57_length: at most 24 bytes) |
| C58 | `Damage.v`: the decoder of MsgPack.v on more or less input; Persist.v's disk with renames that may not have reached the disk, write-back and power-cut events; specification `returns`; `PropsDamage.v` | decoding is monotone in the input, so a proper prefix of an image does not decode; induction over sessions with an invariant relating each file version to the calls it holds. Refuted without write-back (`C58_power_refuted`) and for damage other than truncation (`C58_damage_refuted`) |
| C59 | `Startup.v`: `parse_cli_args`, `open_dir` (the directory after every step of opening), `launch`, `ask`, `stop`, `kill` on a `machine` of files and running servers; specifications `number_text`, `asks_ds`, `serves`, `kept` (Deploy.v), `asked_at`; `PropsStartup.v`, `PropsStarted.v` | case analysis of a start against `serves` (iff); invariants over histories: process numbers not reused, addresses and directories apart, contents of a directory equal to those of an uninterrupted session, image of a path equal to what `kept` saved. Three refutations by computation |
| C60 | `Errors.v`: `Display` and `source` of the error types, status codes and messages; statuses carry their reason (`Server.v`); specification: `parts` (every uuid, identifier, JSON text and missing required field of a message, by its name in indradb.proto), `faulty`, `asks_for`; `PropsErrors.v` | injectivity by cases on first characters and cancellation of suffixes; `honest`: each conversion fails with a fault of some part and succeeds only if no part has one, by induction on messages; the remote theorem from C35 with reasons |
| C61 | `Killable.v`: Conc.v's lock with kills as steps (threads in a call are gone); `PropsOutage.v`: the server of `DeployPlugins.v` as that object; `RdbDoom.v`: an execution cut off at any moment is one in which the calls in progress end at once with the same database; `PropsOutageRdb.v`: `rocks_life` (sessions of interleaved calls, each cut off; RocksDB recovers an earlier moment, not before a returned sync) against `as_sequential` (C23's calls and crashes); `PropsOutageServer.v`: the same for requests (`served_life` against `as_requests`) | invariant with pending calls split at kills; explanation extended step by step; C50's theorems applied to the explanation; RocksDB: `as_if_finished` and C28's footprint theorem per session, then C23's reopening |
| C62 | `UuidV1.v`: clock readings, the shared counter, the 16 bytes; `PropsFresh.v`: programs whose ids are made up | injectivity of the byte layout (base-256 digits, `N.mod_mul_r`); induction on histories: every vertex comes from a call that brings it in (`mem_effect`, `rdb_effect`); C40, C02, C17 applied |
| C63 | `PropsPaging.v`: `scan`, the pages a client reads with arbitrary calls between them, and `faithful`, what it may conclude, both without reference to a backend | induction on the pages from C09's single page; successor ids (C18) |
| C64 | `PropsRepeatRead.v`: two runs of one query with different hash orders (`order` of `Mem.v`) | induction on the query: each stage maps permuted inputs to permuted outputs; filters only test membership; `PropsRepeatWrite.v`: updates by permuted lists give equal graphs (`same_apply`), through `mem_effect`; with `C54_mem_unseen` later index-free queries answer alike (C64_mem_write_unseen) |
| C65 | `JsonGrammar.v`: RFC 8259 as an inductive relation between texts and values, independent of the reader; `PropsGrammar.v`: the reader of `JsonText.v` decides it | soundness by induction on the reader's fuel, completeness by mutual induction on the grammar; uniqueness of digits without leading zeros; sorted maps with equal lookups are equal |
| C66 | `PropsFaultConc.v`: the interleaving machine of `RdbProg.v` with a step that makes a read fail (`freach`); the specification compares with executions of the machine without it, in which the failed calls are `sync` calls | every program writes at most once, and then returns Ok (`tidy`), apart from index_property; forward simulation that keeps the chosen calls idle and the others in step; then C28_rdb_apart_partial on the simulated execution, with the idle calls dropped from its explanation |

If a property is false of the faithful model, `..._refuted` proves a concrete counterexample and
`..._partial` states what does hold. In `MANIFEST.json` such a property is `partial`; the note says what
is missing. Every positive theorem of a property marked partial carries the suffix.

## 4. Trusted base

* Coq 8.16.1's kernel, including `vm_compute` (used in examples and refutations).
* The faithfulness of the model to the cited lines, and the assumptions in section 2. On the
  specification side of C53, the transcription of proto/indradb.proto (`Schema.v`, `Service.v`) and of the
  protobuf encoding rules.
* Axioms: none. `tools/assumptions.py` runs `Print Assumptions` on every theorem in the manifest after a
  build and writes `ASSUMPTIONS.txt`: all are `Closed under the global context`. (A scan of the loaded
  library files also reports the parameters of the module type `Coq.ssr.ssrunder.Under_rel`, which
  the standard library itself instantiates and no theorem here uses.)

## 5. Testing the theorems

`seeded/LOG.jsonl` lists edits of the model in the way of realistic bugs, the claim each breaks, and
which theorems then failed. The procedure: copy the sources, apply the edit, rebuild; a proof that no
longer goes through is replaced by `Admitted` and everything resting on it counts as failed.
