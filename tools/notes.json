{
 "C01": [
  "proved",
  "All histories, both builds, any iteration order. The one query stage that can return an edge not in the graph is an edge presence index lookup; that is C41."
 ],
 "C02": [
  "proved",
  "Both backends, all histories."
 ],
 "C03": [
  "proved",
  "Both backends, all histories."
 ],
 "C04": [
  "proved",
  "All histories, both builds, exact effect on vertices, edges and properties."
 ],
 "C05": [
  "partial",
  "False as stated: C05_rdb_inbound_refuted (edges into a deleted vertex stay). C05_rdb_delete_vertices_partial gives the exact effect; C05_rdb_closed_partial gives the full claim when every edge into a deleted vertex starts at a deleted vertex."
 ],
 "C06": [
  "partial",
  "Memory: proved. RocksDB: proved for every history without bulk insert and in general with the exact set deleted (C06_rdb_delete_edges_any_partial); false for edges without an outbound vertex created by bulk insert (C06_rdb_dangling_refuted)."
 ],
 "C07": [
  "proved",
  "Both backends; RocksDB for values that survive the JSON text form (C42_rdb_good: nested at most 127 deep, floats read back)."
 ],
 "C08": [
  "proved",
  "The semantics is Spec.v (evals/fails). Queries that consult no index: all histories. Queries that consult an index: histories that keep the index exact (C14, C15 say which)."
 ],
 "C09": [
  "proved",
  ""
 ],
 "C10": [
  "proved",
  ""
 ],
 "C11": [
  "proved",
  ""
 ],
 "C12": [
  "proved",
  ""
 ],
 "C13": [
  "proved",
  ""
 ],
 "C14": [
  "partial",
  "Proved for debug builds (tidy histories) and completeness for all builds; false in release builds (index entries are removed inside debug_assert!): C14_mem_release_refuted, C14_mem_release_value_refuted."
 ],
 "C15": [
  "partial",
  "Presence: proved. Value lookups return exactly the elements whose value has the same 64-bit hash; equal to value equality when hashes do not collide. False for colliding hash inputs, bulk inserts with duplicate properties and values the text codec changes (three refutations)."
 ],
 "C16": [
  "proved",
  ""
 ],
 "C17": [
  "partial",
  "C17_mem_panic_partial characterises panics exactly; C17_mem_debug_no_panic_partial for tidy histories; two refutations (largest UUID, orphan property)."
 ],
 "C18": [
  "proved",
  ""
 ],
 "C19": [
  "proved",
  ""
 ],
 "C20": [
  "proved",
  "For values that survive the JSON text form; C20_rdb_text instantiates it with the serde_json model of JsonText.v. C20_rdb_deep_refuted and C20_rdb_undecodable_refuted show the proviso is needed. C20_rdb_concurrent extends it to any number of threads under any schedule."
 ],
 "C21": [
  "proved",
  "Sequential histories, and (C21_rdb_concurrent) every moment of every concurrent execution, whatever the codec and whichever writes fail."
 ],
 "C22": [
  "proved",
  ""
 ],
 "C23": [
  "proved",
  "Any number of crashes anywhere in a history. C23_rdb_crash_any assumes nothing about which calls fail; C23_rdb_crash adds, when no index_property failed, that all later calls behave as after the surviving calls; C23_rdb_synced is the single-crash reading. Assumed of RocksDB (DESIGN.md): a write batch is atomic and batches survive in order; a sync that returns Ok has made everything before it durable."
 ],
 "C24": [
  "partial",
  "Proved for every file-system behaviour in which the last buffered write succeeds; false if it fails silently when the BufWriter is dropped (C24_mem_silent_flush_refuted)."
 ],
 "C25": [
  "partial",
  "Memory proved; RocksDB false (two refutations), C25_rdb_bulk_partial for fresh vertices and edges with endpoints."
 ],
 "C26": [
  "proved",
  ""
 ],
 "C29": [
  "partial",
  "False as stated (five refutations). Equal result lists for all comparable call sequences, for a syntactic class of call sequences, and index lookups equal up to order."
 ],
 "C30": [
  "partial",
  "Reflexive and symmetric; transitive for float-free or small values; transitivity and the hash contract refuted in general."
 ],
 "C31": [
  "partial",
  "Antisymmetric, integers exact, transitive for values without big-integer/float mixes; transitivity refuted in general. C31_float_value, C31_patterns, C31_floats (PropsIeee.v): the number a float pattern is compared by is IEEE 754's."
 ],
 "C32": [
  "partial",
  "Scalars of one kind; nested values, kinds and signs refuted."
 ],
 "C36": [
  "proved",
  "char::is_alphanumeric on non-ASCII is an oracle."
 ],
 "C39": [
  "partial",
  "Idempotence and reopening proved; retry after a failed call refuted (RocksDB)."
 ],
 "C40": [
  "proved",
  ""
 ],
 "C41": [
  "partial",
  "False in release builds and after bulk inserts of properties of missing edges (three refutations). Proved for every query in debug builds (C41_mem_debug_partial) and on RocksDB (C41_rdb_partial) for histories that never write a property of a missing element."
 ],
 "C33": [
  "proved",
  "Every conversion, queries of any depth. C33_text gives the condition on values for the serde_json model of JsonText.v; C33_deep_refuted shows it is sharp."
 ],
 "C34": [
  "proved",
  "Every request kind and any stream: a request is rejected with invalid_argument, with no effect, exactly when it is not well formed (independent definition wf_*). One gap in the claim: an unknown direction number is accepted as outbound (C34_unknown_direction_refuted)."
 ],
 "C35": [
  "partial",
  "Same result (the same value or the same error) and same effect for every call and for whole sessions on both backends, except that a get that panics on the server is reported as an empty result (C35_get_panic_refuted). Wire format and size limits: C47. C35_deep_refuted: a set_properties of a value nested 128 deep is rejected remotely though it works locally."
 ],
 "C37": [
  "partial",
  "Every vertex set, thread count and schedule; also progress and termination, and naive_vertex_count equals the count query on both backends. A mapper call that panics is not reported (C37_panic_refuted); the claim holds for calls that return."
 ],
 "C38": [
  "proved",
  "Every list of libraries. Side finding: the interface version given to register_plugins! is ignored (C38_macro_version_refuted)."
 ],
 "C27": [
  "proved",
  "Any number of threads and any schedule of the mutex-protected datastore; a panicking call poisons the mutex. Mutex fairness is not modelled: C27_mem_progress says that while a call is in progress some call in progress can step."
 ],
 "C28": [
  "partial",
  "False as stated: C28_rdb_created_twice_refuted, C28_rdb_stale_index_refuted, C28_rdb_dangling_edge_refuted exhibit interleavings that no sequential execution explains. Proved: linearizability under every schedule when calls that overlap in time do not interfere, in terms of what each API call can read and write (C28_rdb_apart_partial; footprints in Foot.v), when no write changes what another call in progress has already read (C28_rdb_orderly_partial), when updates do not overlap other calls (C28_rdb_linearizable_partial), and under every schedule when each call makes one database access (C28_rdb_single_access_partial); for every schedule: correct query answers for the momentary graph, no missing index entries, exclusion between index_property and property writers, no deadlock. C28_rdb_apart_moment_partial: the same at every moment, also with calls in progress."
 ],
 "C42": [
  "proved",
  "For any float formatter and float reader (parameters): the floats in the value must be read back from their own digits, which serde_json without float_roundtrip does not guarantee; C57 makes both concrete."
 ],
 "C43": [
  "proved",
  "For any implementation of the Transaction trait; answerability shown on both backends. output_type (internal) does not give the kind of a pipe, which does not matter for the builders. output_len (internal) is only a capacity: C43_output_len bounds it where it is exact, C43_output_len_refuted shows it wrong for includes, C43_output_len_count for counts."
 ],
 "C44": [
  "partial",
  "Memory: proved. RocksDB: edges_of, ends and all-outbound proved (the last without bulk inserts); inbound only when every edge has its inbound vertex, otherwise refuted (C44_rdb_inbound_refuted: edges into a deleted vertex)."
 ],
 "C45": [
  "partial",
  "Memory: no edges proved for every history; no properties when properties are written only to existing elements (edges: debug builds; release refuted). RocksDB: no outbound edges, no properties; old inbound edges come back (C45_rdb_inbound_refuted)."
 ],
 "C46": [
  "partial",
  "Uuid texts, unambiguity and no-effect-on-bad-arguments for every input. Effect and output: proved for any datastore whose answers are sendable, and for whole CLI sessions on RocksDB and on debug memory builds, when JSON values with floats survive their text form (C42); a panicking get is shown as no result. Clap parsing and Debug formatting are not modelled."
 ],
 "C47": [
  "partial",
  "Encoding round trips, limits and rejection hold for every message and byte string; listings over 4 MiB and queries of 50 or more stages are refuted (the local call works, the remote one fails). Sessions: proved for RocksDB and debug memory builds under the limits and the float condition of C42. HTTP/2, compression and connection loss other than broken bulk streams are not modelled."
 ],
 "C48": [
  "proved",
  "Plugins are terminating programs over the Transaction methods (PluginProg.v); threads of their own and unsafe code are outside the model. RocksDB guarantees need that values read from JSON text survive being written (C42) and that plugins write such values."
 ],
 "C49": [
  "partial",
  "Memory: linearizability, reachability, freedom from deadlock and atomicity of plugin calls hold for every interleaving. RocksDB (without plugins): linearizability of requests and responses holds if requests that overlap make calls that do not interfere (C49_rocksdb_apart_partial) or if every call makes one access (C49_rocksdb_single_access_partial); freedom from deadlock, edges stored in both directions, and answers that do not depend on the database hold unconditionally. Missing and false in general for RocksDB: C49_rocksdb_refuted (two clients both create one vertex) and C49_rocksdb_plugin_refuted (a plugin call is not atomic)."
 ],
 "C50": [
  "partial",
  "Memory: proved when the image is within the format's limits and the write buffer's last flush succeeds; without that an acknowledged sync can lose everything (C50_memory_sync_refuted, as C24). Plugins that call sync themselves and kills at any moment of handling a request are covered by C50_memory_syncing_plugins_partial and C50_memory_synced_by_plugins_partial, in terms of the calls plugins make; in terms of whole requests it is refuted (C50_memory_plugin_halved_refuted: half of a plugin call's effects can survive). RocksDB: proved for every sequence of requests and crashes, under RocksDB's own durability of compacted data. Power loss for the in-memory server is in C58."
 ],
 "C51": [
  "proved",
  "C51_memory_chain: any history and build, chains without index lookups; C51_memory_debug_chain and C51_rocksdb_chain: every chain, after histories that write properties of existing elements only (tidy). For lookups in release builds or after untidy histories the index itself can be wrong (refuted under C14/C15). 'Equal' is the backend's own value comparison (memory: same value and hash, RocksDB: same 64-bit hash). C51_constructors: the constructors used directly."
 ],
 "C52": [
  "proved",
  "C52_memory_laws: every history and build; C52_rocksdb_laws: every history with a codec that round-trips; the lookup law needs an exact index, so it is stated for histories that write properties of existing elements only and debug builds of the in-memory database (its failure elsewhere is C14/C15's refutation)."
 ],
 "C53": [
  "proved",
  "Schema.v and Service.v transcribe proto/indradb.proto as data and define serialization as relations; C53_request and C53_served: any serialization is received and served as the request; C53_client, C53_server: what both sides send are serializations of the declared types; C53_response: any serialization of a response is read. Outside: groups, and messages with a non-repeated field twice (no serializer writes them). PropsMeaning.v says by the schema's field names which message each call and result is (C53_meaning, C53_client_meaning), and C53_any_client: any client that sends a call's messages in any serialization gets that call made and its result back."
 ],
 "C54": [
  "partial",
  "Retry.v: which calls may be repeated (repeatable), independent of the backends, and the proof on abstract graphs (repeat_call). Per backend: C54_*_repeat, C54_mem_many, C54_rdb_attempts for calls whose query consults no index, after any history; C54_*_unseen: equal graphs answer alike; C54_*_repeat*_partial: with index lookups, after tidy histories only (missing: histories in which the index itself is wrong, see C14, C15, C41, C39). C54_*_refuted: the conditions are needed."
 ],
 "C55": [
  "proved",
  "RocksDB: same results and same database, for every history, codec, hash function and outcome of writes (C55_rdb_either_order, C55_rdb_unaffected, C55_rdb_past). Memory: same results and databases that answer every later sequence of calls alike, in debug and release builds, after any history, with property indexes (also stale ones), for every iteration order of hash sets (C55_mem_either_order, C55_mem_unaffected, C55_mem_past); calls that panic excepted, because a panic poisons the memory database. MemFoot.v: states that agree on a call's footprint stay in lockstep; outside of it a call changes nothing, index entries included."
 ],
 "C56": [
  "partial",
  "RdbFault.v models every read of the RocksDB datastore with its `?`: any set of keys can be unreadable, any iterator can break off anywhere, per call. Every call returns and does exactly what it would without the failure, or returns the error and leaves the stored data untouched (C56_rdb_call_partial, in any state); acknowledged changes are complete (C56_rdb_acknowledged); states reached with failing reads are states reached with refused writes (C56_rdb_history), so the other RocksDB properties carry over. False for counting all vertices or edges, which counts the error as an item (C56_rdb_count_refuted; C56_rdb_count says how wrong it can be: at most one too large, or short), and for index_property, which leaves the name in memory (C56_rdb_index_refuted). C56_rdb_page: a full page is not affected by what cannot be read behind it. Simplification: within one call the same read always fares the same way."
 ],
 "C57": [
  "partial",
  "FloatText.v models ryu's writer and serde_json's reader of floats (f64 rounding specified in F64.v, proved correct rounding to nearest even). Proved: text determines the float (C57_distinct), everything written is read and each float is near (C57_near), readable iff at most 127 deep (C57_readable), any number text is read near its value or refused as too large (C57_number, for texts under 2^30 bytes), short decimals exact (C57_short, C57_values), the consequences for RocksDB and gRPC. Exactness for all floats is false: 9007199254740991.0 is read as 9007199254740990.0 (C57_exact_refuted), which in RocksDB also leaves a stale index entry (C57_rdb_refuted) and changes the value sent over gRPC (C57_grpc_refuted); 1.7976931348623158e308 is refused although the nearest double is finite (C57_accepts_refuted). C57_float_value: the number a pattern stands for, in the text, is IEEE 754's. C57_shortest: the text written is the shortest decimal that stands for the float (a reader that rounds correctly reads the float, no decimal with fewer digits does, and none with the same last place is nearer). C57_length: it has at most 24 bytes, so ryu's unchecked 24-byte buffer is never overrun."
 ],
 "C58": [
  "partial",
  "Damage.v extends Persist.v with a disk that may lose what the operating system has not written back. Proved: truncated images refused, sessions with power cuts against the specification `returns`, written-back syncs survive. False without write-back: sync does not fsync, so a power cut soon after an acknowledged sync can lose everything, also what earlier syncs saved (C58_power_refuted); and damage other than truncation is not noticed (C58_damage_refuted: one changed byte, an edge without its vertex). Simplification: bytes that did not reach the disk are missing, not zero. C58_zero_file, C58_zeros_refuted: a lost file that reads as zeros is refused, a lost tail that reads as zeros may be accepted (the index then misses a vertex)."
 ],
 "C59": [
  "partial",
  "Startup.v models cli.rs, main.rs, run_with_plugins, the opening of a RocksDB directory step by step, and a machine with files and running servers. Proved: argument parsing, exactly when a start serves and what, addresses and directories used once, locality of file changes, restarts of RocksDB servers invisible (writes not failing, no --repair), in-memory servers one at a time on a path against the specification `kept` of Deploy.v (format limits and flush on drop as in C24). False in general: a first start on a RocksDB path killed while it creates its column families leaves a directory that can never be opened again (C59_rdb_half_created_refuted); Path::exists is false when metadata cannot be read, so the server starts empty and its next sync overwrites the data (C59_hidden_refuted); two in-memory servers may share a path and overwrite each other's synced data (C59_two_writers_refuted). Not modelled: clap's own splitting of the command line, symbolic links, what RocksDB's repair keeps, power cuts (C58) in the machine model."
 ],
 "C60": [
  "partial",
  "Proved: texts of library and conversion errors are injective; codes and messages of statuses determine the cause; requests are refused as invalid exactly if they have a fault and the fault named is one they have (C60_malformed, C60_status; specification: the list `parts` of a message and `faulty`); remote failures carry the local error (C60_remote_error). False for plugin errors: InvalidArgument and Other have arbitrary texts that can equal any other error's (C60_plugin_text_refuted); a get that panics reports no status (C35_get_panic_refuted). That tonic delivers code and message unchanged is assumed; derived Debug texts are not modelled."
 ],
 "C61": [
  "partial",
  "In-memory server: C61_memory_explained (every history of requests and kills has a sequential explanation that agrees with real time), C61_memory_restored_partial and C61_memory_synced_partial (what the explanation keeps at a kill, by C50: format limits and flush of the last write assumed), C61_memory_progress. RocksDB: C61_rdb_explained_partial and C61_rdb_opens_partial for lives in which calls that overlap do not interfere (C28 shows it is false otherwise), with RocksDB's log recovered up to some moment not before an acknowledged sync was called; the same for requests to a server, with restarts: C61_rdb_requests_partial (specification: as_requests), C61_rdb_starts_partial (PropsOutageServer.v, without plugins); C28_rdb_apart_moment_partial is the same for any moment of one session. Values must be readable back (good_op) and there are fewer than 2^64 events."
 ],
 "C62": [
  "partial",
  "C62_exact (one or two processes), C62_unique, C62_restart, C62_shape, C62_not_extreme, C62_mem_new, C62_rdb_new, C62_mem_no_panic. False for processes that run at the same time (C62_processes_refuted): every process counts from zero with the same node id, so two clients that make an id in the same 100 ns make the same one and the second is refused. The generator of the uuid crate (not in /repo) is modelled from its documented behaviour."
 ],
 "C63": [
  "proved",
  "C63_mem_paging, C63_rdb_paging (specification: scan, faithful), C63_mem_next, C63_rdb_next, C63_mem_adding. RocksDB: histories whose values are readable back (good_history). Calls are taken in the order in which they take effect (C27, C28)."
 ],
 "C64": [
  "proved",
  "C64_rdb, C64_mem_exact, C64_mem_uncut, C64_mem_number; C64_cut_refuted shows that a stage cut off by its limit may give other elements. C64_mem_write: a delete or set_properties acts alike whatever the order of the index lookups, as long as nothing was cut off; C64_cut_write_refuted: with a cut-off stage other elements may be deleted. Specification: start_of, from_index, same_answer, uncut, given; shows (Claims.v) for the database left behind. C64_mem_write_unseen: nor does any later query that reads no property index tell the two results apart."
 ],
 "C65": [
  "proved",
  "C65_read, C65_values, C65_refused, C65_unambiguous, C65_request, C65_written. The grammar is a separate inductive definition (JsonGrammar.v). serde_json itself is a dependency, modelled in JsonText.v from its documented behaviour; the value of a float literal is C57's."
 ],
 "C66": [
  "partial",
  "C66_reported, C66_no_trace, C66_database, C66_linearizable_partial, C66_case. Missing: the counts of all vertices and edges, which take the error for an item (C56_rdb_count_refuted), and index_property, which remembers the name before it reads (C56_rdb_index_refuted), may not be among the calls whose read fails; an iterator that breaks off midway is taken to end its call at once (the code first uses the items that came before); linearizability needs the condition of C28_rdb_apart_partial on the remaining calls, without which it is false."
 ]
}