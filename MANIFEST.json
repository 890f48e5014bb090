{
 "claims": [
  {
   "property": "C01",
   "status": "proved",
   "theorems": [
    "C01_mem_no_dangling",
    "C01_mem_vertices_exist",
    "C01_mem_debug_no_dangling"
   ],
   "note": "All histories, both builds, any iteration order. The one query stage that can return an edge not in the graph is an edge presence index lookup; that is C41."
  },
  {
   "property": "C02",
   "status": "proved",
   "theorems": [
    "C02_mem_create_vertex",
    "C02_rdb_create_vertex"
   ],
   "note": "Both backends, all histories."
  },
  {
   "property": "C03",
   "status": "proved",
   "theorems": [
    "C03_mem_create_edge",
    "C03_mem_idempotent",
    "C03_rdb_create_edge",
    "C03_rdb_idempotent"
   ],
   "note": "Both backends, all histories."
  },
  {
   "property": "C04",
   "status": "proved",
   "theorems": [
    "C04_mem_delete_vertices"
   ],
   "note": "All histories, both builds, exact effect on vertices, edges and properties."
  },
  {
   "property": "C05",
   "status": "partial",
   "theorems": [
    "C05_rdb_delete_vertices_partial",
    "C05_rdb_closed_partial",
    "C05_rdb_inbound_refuted"
   ],
   "note": "False as stated: C05_rdb_inbound_refuted (edges into a deleted vertex stay). C05_rdb_delete_vertices_partial gives the exact effect; C05_rdb_closed_partial gives the full claim when every edge into a deleted vertex starts at a deleted vertex."
  },
  {
   "property": "C06",
   "status": "partial",
   "theorems": [
    "C06_mem_delete_edges_partial",
    "C06_rdb_delete_edges_partial",
    "C06_rdb_delete_edges_any_partial",
    "C06_rdb_delete_edges_tidy_partial",
    "C06_rdb_dangling_refuted"
   ],
   "note": "Memory: proved. RocksDB: proved for every history without bulk insert and in general with the exact set deleted (C06_rdb_delete_edges_any_partial); false for edges without an outbound vertex created by bulk insert (C06_rdb_dangling_refuted)."
  },
  {
   "property": "C07",
   "status": "proved",
   "theorems": [
    "C07_mem_set_vertices",
    "C07_mem_set_edges",
    "C07_mem_delete_vprops",
    "C07_mem_delete_eprops",
    "C07_mem_set_vertices_reads",
    "C07_mem_set_edges_reads",
    "C07_mem_delete_vprops_reads",
    "C07_mem_delete_eprops_reads",
    "C07_rdb_set_vertices",
    "C07_rdb_set_edges",
    "C07_rdb_delete_vprops",
    "C07_rdb_delete_eprops",
    "C07_rdb_set_vertices_reads",
    "C07_rdb_set_edges_reads",
    "C07_rdb_delete_vprops_reads",
    "C07_rdb_delete_eprops_reads"
   ],
   "note": "Both backends; RocksDB for values that survive the JSON text form (C42_rdb_good: nested at most 127 deep, floats read back)."
  },
  {
   "property": "C08",
   "status": "proved",
   "theorems": [
    "C08_mem_query",
    "C08_mem_query_indexed",
    "C08_mem_call",
    "C08_rdb_query",
    "C08_rdb_query_indexed",
    "C08_rdb_call"
   ],
   "note": "The semantics is Spec.v (evals/fails). Queries that consult no index: all histories. Queries that consult an index: histories that keep the index exact (C14, C15 say which)."
  },
  {
   "property": "C09",
   "status": "proved",
   "theorems": [
    "C09_mem_range",
    "C09_mem_pages",
    "C09_rdb_range",
    "C09_rdb_pages"
   ],
   "note": ""
  },
  {
   "property": "C10",
   "status": "proved",
   "theorems": [
    "C10_mem_pipe_limit",
    "C10_rdb_pipe_limit"
   ],
   "note": ""
  },
  {
   "property": "C11",
   "status": "proved",
   "theorems": [
    "C11_mem_includes",
    "C11_mem_strip",
    "C11_rdb_includes",
    "C11_rdb_strip"
   ],
   "note": ""
  },
  {
   "property": "C12",
   "status": "proved",
   "theorems": [
    "C12_mem_count",
    "C12_rdb_count"
   ],
   "note": ""
  },
  {
   "property": "C13",
   "status": "proved",
   "theorems": [
    "C13_mem_built",
    "C13_rdb_built"
   ],
   "note": ""
  },
  {
   "property": "C14",
   "status": "partial",
   "theorems": [
    "C14_mem_debug_vertex_presence_partial",
    "C14_mem_debug_vertex_value_partial",
    "C14_mem_debug_edge_presence_partial",
    "C14_mem_debug_edge_value_partial",
    "C14_mem_vertex_presence_complete_partial",
    "C14_mem_vertex_value_complete_partial",
    "C14_mem_edge_presence_complete_partial",
    "C14_mem_edge_value_complete_partial",
    "C14_mem_release_refuted",
    "C14_mem_release_value_refuted"
   ],
   "note": "Proved for debug builds (tidy histories) and completeness for all builds; false in release builds (index entries are removed inside debug_assert!): C14_mem_release_refuted, C14_mem_release_value_refuted."
  },
  {
   "property": "C15",
   "status": "partial",
   "theorems": [
    "C15_rdb_vertex_presence_partial",
    "C15_rdb_edge_presence_partial",
    "C15_rdb_vertex_value_hash_partial",
    "C15_rdb_edge_value_hash_partial",
    "C15_rdb_vertex_value_partial",
    "C15_rdb_edge_value_partial",
    "C15_rdb_hash_input_refuted",
    "C15_rdb_bulk_duplicate_refuted",
    "C15_rdb_lossy_refuted"
   ],
   "note": "Presence: proved. Value lookups return exactly the elements whose value has the same 64-bit hash; equal to value equality when hashes do not collide. False for colliding hash inputs, bulk inserts with duplicate properties and values the text codec changes (three refutations)."
  },
  {
   "property": "C16",
   "status": "proved",
   "theorems": [
    "C16_mem_not_indexed",
    "C16_rdb_not_indexed"
   ],
   "note": ""
  },
  {
   "property": "C17",
   "status": "partial",
   "theorems": [
    "C17_mem_panic_partial",
    "C17_mem_debug_no_panic_partial",
    "C17_mem_max_uuid_refuted",
    "C17_mem_debug_orphan_refuted"
   ],
   "note": "C17_mem_panic_partial characterises panics exactly; C17_mem_debug_no_panic_partial for tidy histories; two refutations (largest UUID, orphan property)."
  },
  {
   "property": "C18",
   "status": "proved",
   "theorems": [
    "C18_next_uuid_successor",
    "C18_next_uuid_largest"
   ],
   "note": ""
  },
  {
   "property": "C19",
   "status": "proved",
   "theorems": [
    "C19_keys_injective",
    "C19_keys_decode",
    "C19_prefix_scan",
    "C19_prefix_owner"
   ],
   "note": ""
  },
  {
   "property": "C20",
   "status": "proved",
   "theorems": [
    "C20_rdb_concurrent",
    "C20_rdb_reads",
    "C20_rdb_no_panic",
    "C20_rdb_errors",
    "C20_rdb_undecodable_refuted",
    "C20_rdb_text",
    "C20_rdb_text_no_panic",
    "C20_rdb_deep_refuted"
   ],
   "note": "For values that survive the JSON text form; C20_rdb_text instantiates it with the serde_json model of JsonText.v. C20_rdb_deep_refuted and C20_rdb_undecodable_refuted show the proviso is needed. C20_rdb_concurrent extends it to any number of threads under any schedule."
  },
  {
   "property": "C21",
   "status": "proved",
   "theorems": [
    "C21_rdb_concurrent",
    "C21_rdb_mirror"
   ],
   "note": "Sequential histories, and (C21_rdb_concurrent) every moment of every concurrent execution, whatever the codec and whichever writes fail."
  },
  {
   "property": "C22",
   "status": "proved",
   "theorems": [
    "C22_rdb_outbound",
    "C22_rdb_returned_edges"
   ],
   "note": ""
  },
  {
   "property": "C23",
   "status": "proved",
   "theorems": [
    "C23_rdb_crash",
    "C23_rdb_synced",
    "C23_rdb_crash_any",
    "C23_rdb_failed_index_refuted"
   ],
   "note": "Any number of crashes anywhere in a history. C23_rdb_crash_any assumes nothing about which calls fail; C23_rdb_crash adds, when no index_property failed, that all later calls behave as after the surviving calls; C23_rdb_synced is the single-crash reading. Assumed of RocksDB (DESIGN.md): a write batch is atomic and batches survive in order; a sync that returns Ok has made everything before it durable."
  },
  {
   "property": "C24",
   "status": "partial",
   "theorems": [
    "C24_mem_reopen_partial",
    "C24_mem_sync_atomic_partial",
    "C24_mem_sync_failed_partial",
    "C24_mem_sessions_partial",
    "C24_mem_silent_flush_refuted"
   ],
   "note": "Proved for every file-system behaviour in which the last buffered write succeeds; false if it fails silently when the BufWriter is dropped (C24_mem_silent_flush_refuted)."
  },
  {
   "property": "C25",
   "status": "partial",
   "theorems": [
    "C25_mem_bulk_partial",
    "C25_rdb_bulk_partial",
    "C25_rdb_overwrite_refuted",
    "C25_rdb_dangling_refuted"
   ],
   "note": "Memory proved; RocksDB false (two refutations), C25_rdb_bulk_partial for fresh vertices and edges with endpoints."
  },
  {
   "property": "C26",
   "status": "proved",
   "theorems": [
    "C26_mem_failed",
    "C26_mem_get",
    "C26_rdb_get",
    "C26_rdb_failed"
   ],
   "note": ""
  },
  {
   "property": "C27",
   "status": "proved",
   "theorems": [
    "C27_mem_linearizable",
    "C27_mem_state",
    "C27_mem_no_dangling",
    "C27_mem_created_once",
    "C27_mem_progress"
   ],
   "note": "Any number of threads and any schedule of the mutex-protected datastore; a panicking call poisons the mutex. Mutex fairness is not modelled: C27_mem_progress says that while a call is in progress some call in progress can step."
  },
  {
   "property": "C28",
   "status": "partial",
   "theorems": [
    "C28_rdb_state_queries_partial",
    "C28_rdb_vertex_presence_complete_partial",
    "C28_rdb_vertex_value_complete_partial",
    "C28_rdb_edge_presence_complete_partial",
    "C28_rdb_edge_value_complete_partial",
    "C28_rdb_guard_exclusive_partial",
    "C28_rdb_can_finish_partial",
    "C28_rdb_linearizable_partial",
    "C28_rdb_orderly_partial",
    "C28_rdb_apart_partial",
    "C28_rdb_single_access_partial",
    "C28_rdb_created_twice_refuted",
    "C28_rdb_stale_index_refuted",
    "C28_rdb_dangling_edge_refuted",
    "C28_rdb_apart_moment_partial"
   ],
   "note": "False as stated: C28_rdb_created_twice_refuted, C28_rdb_stale_index_refuted, C28_rdb_dangling_edge_refuted exhibit interleavings that no sequential execution explains. Proved: linearizability under every schedule when calls that overlap in time do not interfere, in terms of what each API call can read and write (C28_rdb_apart_partial; footprints in Foot.v), when no write changes what another call in progress has already read (C28_rdb_orderly_partial), when updates do not overlap other calls (C28_rdb_linearizable_partial), and under every schedule when each call makes one database access (C28_rdb_single_access_partial); for every schedule: correct query answers for the momentary graph, no missing index entries, exclusion between index_property and property writers, no deadlock. C28_rdb_apart_moment_partial: the same at every moment, also with calls in progress."
  },
  {
   "property": "C29",
   "status": "partial",
   "theorems": [
    "C29_backends_agree_partial",
    "C29_backends_agree_simple_partial",
    "C29_lookups_agree_partial",
    "C29_edge_order_refuted",
    "C29_limit_refuted",
    "C29_delete_refuted",
    "C29_bulk_refuted",
    "C29_panic_refuted"
   ],
   "note": "False as stated (five refutations). Equal result lists for all comparable call sequences, for a syntactic class of call sequences, and index lookups equal up to order."
  },
  {
   "property": "C30",
   "status": "partial",
   "theorems": [
    "C30_json_eq_partial",
    "C30_key_eq_equivalence_partial",
    "C30_small_ints_exact_partial",
    "C30_transitive_refuted",
    "C30_hash_refuted",
    "C30_hash_zero_refuted"
   ],
   "note": "Reflexive and symmetric; transitive for float-free or small values; transitivity and the hash contract refuted in general."
  },
  {
   "property": "C31",
   "status": "partial",
   "theorems": [
    "C31_order_partial",
    "C31_antisymmetric_partial",
    "C31_integers_exact_partial",
    "C31_int_to_double_partial",
    "C31_transitive_partial",
    "C31_transitive_refuted",
    "C31_patterns",
    "C31_float_value",
    "C31_floats"
   ],
   "note": "Antisymmetric, integers exact, transitive for values without big-integer/float mixes; transitivity refuted in general. C31_float_value, C31_patterns, C31_floats (PropsIeee.v): the number a float pattern is compared by is IEEE 754's."
  },
  {
   "property": "C32",
   "status": "partial",
   "theorems": [
    "C32_hash_input_partial",
    "C32_same_value_same_input_partial",
    "C32_nested_refuted",
    "C32_kind_refuted",
    "C32_sign_refuted"
   ],
   "note": "Scalars of one kind; nested values, kinds and signs refuted."
  },
  {
   "property": "C33",
   "status": "proved",
   "theorems": [
    "C33_query",
    "C33_output",
    "C33_bulk_item",
    "C33_uuid",
    "C33_identifier",
    "C33_json",
    "C33_vertex",
    "C33_edge",
    "C33_direction",
    "C33_vertex_property",
    "C33_edge_property",
    "C33_named_property",
    "C33_set_properties_request",
    "C33_index_request",
    "C33_injective",
    "C33_text",
    "C33_deep_refuted"
   ],
   "note": "Every conversion, queries of any depth. C33_text gives the condition on values for the serde_json model of JsonText.v; C33_deep_refuted shows it is sharp."
  },
  {
   "property": "C34",
   "status": "proved",
   "theorems": [
    "C34_malformed",
    "C34_bulk_all_or_nothing",
    "C34_bulk_malformed",
    "C34_wellformed_accepted",
    "C34_response",
    "C34_unknown_direction_refuted"
   ],
   "note": "Every request kind and any stream: a request is rejected with invalid_argument, with no effect, exactly when it is not well formed (independent definition wf_*). One gap in the claim: an unknown direction number is accepted as outbound (C34_unknown_direction_refuted)."
  },
  {
   "property": "C35",
   "status": "partial",
   "theorems": [
    "C35_remote_is_local_partial",
    "C35_ping_partial",
    "C35_plugin_partial",
    "C35_session_partial",
    "C35_memory_session_partial",
    "C35_rocksdb_session_partial",
    "C35_get_panic_refuted",
    "C35_deep_refuted"
   ],
   "note": "Same result (the same value or the same error) and same effect for every call and for whole sessions on both backends, except that a get that panics on the server is reported as an empty result (C35_get_panic_refuted). Wire format and size limits: C47. C35_deep_refuted: a set_properties of a value nested 128 deep is rejected remotely though it works locally."
  },
  {
   "property": "C36",
   "status": "proved",
   "theorems": [
    "C36_identifier_new",
    "C36_identifier_errors",
    "C36_identifier_stored"
   ],
   "note": "char::is_alphanumeric on non-ASCII is an oracle."
  },
  {
   "property": "C37",
   "status": "partial",
   "theorems": [
    "C37_all_once_partial",
    "C37_error_origin_partial",
    "C37_errors_reported_partial",
    "C37_never_twice_partial",
    "C37_threads_partial",
    "C37_progress_partial",
    "C37_terminates_partial",
    "C37_naive_vertex_count_partial",
    "C37_naive_vertex_count_ok_partial",
    "C37_mem_count_is_query_partial",
    "C37_rdb_count_is_query_partial",
    "C37_panic_refuted"
   ],
   "note": "Every vertex set, thread count and schedule; also progress and termination, and naive_vertex_count equals the count query on both backends. A mapper call that panics is not reported (C37_panic_refuted); the claim holds for calls that return."
  },
  {
   "property": "C38",
   "status": "proved",
   "theorems": [
    "C38_starts",
    "C38_first_mismatch",
    "C38_last_wins",
    "C38_known_names",
    "C38_unknown_plugin",
    "C38_no_plugins",
    "C38_macro_version_refuted"
   ],
   "note": "Every list of libraries. Side finding: the interface version given to register_plugins! is ignored (C38_macro_version_refuted)."
  },
  {
   "property": "C39",
   "status": "partial",
   "theorems": [
    "C39_mem_debug_idempotent_partial",
    "C39_rdb_idempotent_partial",
    "C39_rdb_reopen_partial",
    "C39_rdb_retry_refuted"
   ],
   "note": "Idempotence and reopening proved; retry after a failed call refuted (RocksDB)."
  },
  {
   "property": "C40",
   "status": "proved",
   "theorems": [
    "C40_mem_fresh",
    "C40_rdb_fresh"
   ],
   "note": ""
  },
  {
   "property": "C41",
   "status": "partial",
   "theorems": [
    "C41_mem_debug_partial",
    "C41_mem_release_refuted",
    "C41_mem_debug_bulk_refuted",
    "C41_rdb_partial",
    "C41_rdb_bulk_refuted"
   ],
   "note": "False in release builds and after bulk inserts of properties of missing edges (three refutations). Proved for every query in debug builds (C41_mem_debug_partial) and on RocksDB (C41_rdb_partial) for histories that never write a property of a missing element."
  },
  {
   "property": "C42",
   "status": "proved",
   "theorems": [
    "C42_text_roundtrip",
    "C42_text_integers",
    "C42_text_too_deep",
    "C42_roundtrip_iff",
    "C42_text_injective",
    "C42_read_valid",
    "C42_read_depth",
    "C42_reread",
    "C42_rdb_good",
    "C42_rdb_good_history"
   ],
   "note": "For any float formatter and float reader (parameters): the floats in the value must be read back from their own digits, which serde_json without float_roundtrip does not guarantee; C57 makes both concrete."
  },
  {
   "property": "C43",
   "status": "proved",
   "theorems": [
    "C43_result_kind",
    "C43_output_len",
    "C43_output_len_refuted",
    "C43_output_len_count",
    "C43_extract",
    "C43_update_kinds",
    "C43_builders_exact",
    "C43_rejected_fail",
    "C43_mem_answerable",
    "C43_rdb_answerable"
   ],
   "note": "For any implementation of the Transaction trait; answerability shown on both backends. output_type (internal) does not give the kind of a pipe, which does not matter for the builders. output_len (internal) is only a capacity: C43_output_len bounds it where it is exact, C43_output_len_refuted shows it wrong for includes, C43_output_len_count for counts."
  },
  {
   "property": "C44",
   "status": "partial",
   "theorems": [
    "C44_mem_edges_of",
    "C44_mem_ends",
    "C44_mem_ends_exist",
    "C44_mem_all_outbound",
    "C44_mem_all_inbound",
    "C44_rdb_edges_of_partial",
    "C44_rdb_ends",
    "C44_rdb_all_outbound_partial",
    "C44_rdb_all_inbound_partial",
    "C44_rdb_inbound_refuted"
   ],
   "note": "Memory: proved. RocksDB: edges_of, ends and all-outbound proved (the last without bulk inserts); inbound only when every edge has its inbound vertex, otherwise refuted (C44_rdb_inbound_refuted: edges into a deleted vertex)."
  },
  {
   "property": "C45",
   "status": "partial",
   "theorems": [
    "C45_mem_vertex_edges",
    "C45_mem_vertex_properties_partial",
    "C45_mem_debug_edge_properties_partial",
    "C45_mem_release_edge_refuted",
    "C45_rdb_vertex_edges_partial",
    "C45_rdb_vertex_outbound_partial",
    "C45_rdb_vertex_properties_partial",
    "C45_rdb_edge_properties_partial",
    "C45_rdb_inbound_refuted"
   ],
   "note": "Memory: no edges proved for every history; no properties when properties are written only to existing elements (edges: debug builds; release refuted). RocksDB: no outbound edges, no properties; old inbound edges come back (C45_rdb_inbound_refuted)."
  },
  {
   "property": "C46",
   "status": "partial",
   "theorems": [
    "C46_uuid_text",
    "C46_uuid_printed",
    "C46_uuid_unambiguous",
    "C46_unambiguous",
    "C46_invalid_no_effect",
    "C46_command_partial",
    "C46_ping",
    "C46_memory_session_partial",
    "C46_rocksdb_session_partial",
    "C46_session_total",
    "C46_values_ok"
   ],
   "note": "Uuid texts, unambiguity and no-effect-on-bad-arguments for every input. Effect and output: proved for any datastore whose answers are sendable, and for whole CLI sessions on RocksDB and on debug memory builds, when JSON values with floats survive their text form (C42); a panicking get is shown as no result. Clap parsing and Debug formatting are not modelled."
  },
  {
   "property": "C47",
   "status": "partial",
   "theorems": [
    "C47_query",
    "C47_stages",
    "C47_query_unambiguous",
    "C47_request",
    "C47_output",
    "C47_output_large",
    "C47_remote_is_local_partial",
    "C47_plugin_partial",
    "C47_session_partial",
    "C47_deep_refuted",
    "C47_deep_set_refuted",
    "C47_large_request",
    "C47_large_answer_refuted",
    "C47_garbage",
    "C47_query_extended",
    "C47_vertices_large",
    "C47_edges_large",
    "C47_listing_refuted",
    "C47_memory_session_partial",
    "C47_rocksdb_session_partial",
    "C47_json_text"
   ],
   "note": "Encoding round trips, limits and rejection hold for every message and byte string; listings over 4 MiB and queries of 50 or more stages are refuted (the local call works, the remote one fails). Sessions: proved for RocksDB and debug memory builds under the limits and the float condition of C42. HTTP/2, compression and connection loss other than broken bulk streams are not modelled."
  },
  {
   "property": "C48",
   "status": "proved",
   "theorems": [
    "C48_memory_history",
    "C48_rocksdb_history",
    "C48_memory_no_dangling",
    "C48_rocksdb_reads",
    "C48_rocksdb_no_panic",
    "C48_rocksdb_mirror",
    "C48_rocksdb_outbound",
    "C48_reader",
    "C48_hello_world",
    "C48_no_rollback",
    "C48_panic_poisons"
   ],
   "note": "Plugins are terminating programs over the Transaction methods (PluginProg.v); threads of their own and unsafe code are outside the model. RocksDB guarantees need that values read from JSON text survive being written (C42) and that plugins write such values."
  },
  {
   "property": "C49",
   "status": "partial",
   "theorems": [
    "C49_memory_linearizable",
    "C49_memory_state",
    "C49_memory_no_dangling",
    "C49_memory_progress",
    "C49_memory_independent",
    "C49_memory_ping",
    "C49_memory_plugin_atomic",
    "C49_alone",
    "C49_rocksdb_plugin_refuted",
    "C49_rocksdb_apart_partial",
    "C49_rocksdb_single_access_partial",
    "C49_rocksdb_mirror",
    "C49_rocksdb_no_call",
    "C49_rocksdb_once",
    "C49_rocksdb_progress",
    "C49_rocksdb_refuted"
   ],
   "note": "Memory: linearizability, reachability, freedom from deadlock and atomicity of plugin calls hold for every interleaving. RocksDB (without plugins): linearizability of requests and responses holds if requests that overlap make calls that do not interfere (C49_rocksdb_apart_partial) or if every call makes one access (C49_rocksdb_single_access_partial); freedom from deadlock, edges stored in both directions, and answers that do not depend on the database hold unconditionally. Missing and false in general for RocksDB: C49_rocksdb_refuted (two clients both create one vertex) and C49_rocksdb_plugin_refuted (a plugin call is not atomic)."
  },
  {
   "property": "C50",
   "status": "partial",
   "theorems": [
    "C50_memory_deployment_partial",
    "C50_memory_synced_partial",
    "C50_rocksdb_deployment",
    "C50_rocksdb_synced",
    "C50_memory_sync_refuted",
    "C50_memory_syncing_plugins_partial",
    "C50_memory_synced_by_plugins_partial",
    "C50_memory_plugin_halved_refuted"
   ],
   "note": "Memory: proved when the image is within the format's limits and the write buffer's last flush succeeds; without that an acknowledged sync can lose everything (C50_memory_sync_refuted, as C24). Plugins that call sync themselves and kills at any moment of handling a request are covered by C50_memory_syncing_plugins_partial and C50_memory_synced_by_plugins_partial, in terms of the calls plugins make; in terms of whole requests it is refuted (C50_memory_plugin_halved_refuted: half of a plugin call's effects can survive). RocksDB: proved for every sequence of requests and crashes, under RocksDB's own durability of compacted data. Power loss for the in-memory server is in C58."
  },
  {
   "property": "C51",
   "status": "proved",
   "theorems": [
    "C51_settings",
    "C51_constructors",
    "C51_builds",
    "C51_memory_chain",
    "C51_memory_debug_chain",
    "C51_rocksdb_chain",
    "C51_direction_text",
    "C51_direction_spelling"
   ],
   "note": "C51_memory_chain: any history and build, chains without index lookups; C51_memory_debug_chain and C51_rocksdb_chain: every chain, after histories that write properties of existing elements only (tidy). For lookups in release builds or after untidy histories the index itself can be wrong (refuted under C14/C15). 'Equal' is the backend's own value comparison (memory: same value and hash, RocksDB: same 64-bit hash). C51_constructors: the constructors used directly."
  },
  {
   "property": "C52",
   "status": "proved",
   "theorems": [
    "C52_memory_laws",
    "C52_rocksdb_laws",
    "C52_memory_lookups",
    "C52_rocksdb_lookups"
   ],
   "note": "C52_memory_laws: every history and build; C52_rocksdb_laws: every history with a codec that round-trips; the lookup law needs an exact index, so it is stated for histories that write properties of existing elements only and debug builds of the in-memory database (its failure elsewhere is C14/C15's refutation)."
  },
  {
   "property": "C53",
   "status": "proved",
   "theorems": [
    "C53_meaning",
    "C53_client_meaning",
    "C53_any_client",
    "C53_request",
    "C53_served",
    "C53_client",
    "C53_server",
    "C53_response"
   ],
   "note": "Schema.v and Service.v transcribe proto/indradb.proto as data and define serialization as relations; C53_request and C53_served: any serialization is received and served as the request; C53_client, C53_server: what both sides send are serializations of the declared types; C53_response: any serialization of a response is read. Outside: groups, and messages with a non-repeated field twice (no serializer writes them). PropsMeaning.v says by the schema's field names which message each call and result is (C53_meaning, C53_client_meaning), and C53_any_client: any client that sends a call's messages in any serialization gets that call made and its result back."
  },
  {
   "property": "C54",
   "status": "partial",
   "theorems": [
    "C54_mem_repeat",
    "C54_mem_many",
    "C54_mem_debug_repeat_partial",
    "C54_rdb_repeat",
    "C54_rdb_attempts",
    "C54_rdb_repeat_indexed_partial",
    "C54_mem_unseen",
    "C54_rdb_unseen",
    "C54_mem_bulk_refuted",
    "C54_mem_limit_refuted",
    "C54_rdb_limit_refuted",
    "C54_mem_spread_refuted",
    "C54_rdb_spread_refuted"
   ],
   "note": "Retry.v: which calls may be repeated (repeatable), independent of the backends, and the proof on abstract graphs (repeat_call). Per backend: C54_*_repeat, C54_mem_many, C54_rdb_attempts for calls whose query consults no index, after any history; C54_*_unseen: equal graphs answer alike; C54_*_repeat*_partial: with index lookups, after tidy histories only (missing: histories in which the index itself is wrong, see C14, C15, C41, C39). C54_*_refuted: the conditions are needed."
  },
  {
   "property": "C55",
   "status": "proved",
   "theorems": [
    "C55_rdb_either_order",
    "C55_rdb_unaffected",
    "C55_rdb_past",
    "C55_mem_either_order",
    "C55_mem_unaffected",
    "C55_mem_past"
   ],
   "note": "RocksDB: same results and same database, for every history, codec, hash function and outcome of writes (C55_rdb_either_order, C55_rdb_unaffected, C55_rdb_past). Memory: same results and databases that answer every later sequence of calls alike, in debug and release builds, after any history, with property indexes (also stale ones), for every iteration order of hash sets (C55_mem_either_order, C55_mem_unaffected, C55_mem_past); calls that panic excepted, because a panic poisons the memory database. MemFoot.v: states that agree on a call's footprint stay in lockstep; outside of it a call changes nothing, index entries included."
  },
  {
   "property": "C56",
   "status": "partial",
   "theorems": [
    "C56_rdb_no_fault",
    "C56_rdb_call_partial",
    "C56_rdb_effect",
    "C56_rdb_acknowledged",
    "C56_rdb_get_partial",
    "C56_rdb_history",
    "C56_rdb_meaning_partial",
    "C56_rdb_count",
    "C56_rdb_page",
    "C56_rdb_open",
    "C56_rdb_count_refuted",
    "C56_rdb_index_refuted"
   ],
   "note": "RdbFault.v models every read of the RocksDB datastore with its `?`: any set of keys can be unreadable, any iterator can break off anywhere, per call. Every call returns and does exactly what it would without the failure, or returns the error and leaves the stored data untouched (C56_rdb_call_partial, in any state); acknowledged changes are complete (C56_rdb_acknowledged); states reached with failing reads are states reached with refused writes (C56_rdb_history), so the other RocksDB properties carry over. False for counting all vertices or edges, which counts the error as an item (C56_rdb_count_refuted; C56_rdb_count says how wrong it can be: at most one too large, or short), and for index_property, which leaves the name in memory (C56_rdb_index_refuted). C56_rdb_page: a full page is not affected by what cannot be read behind it. Simplification: within one call the same read always fares the same way."
  },
  {
   "property": "C57",
   "status": "partial",
   "theorems": [
    "C57_short",
    "C57_values",
    "C57_distinct",
    "C57_near",
    "C57_readable",
    "C57_read_valid",
    "C57_number",
    "C57_rdb_good_history",
    "C57_rdb_set_get",
    "C57_rdb_reads",
    "C57_grpc_query",
    "C57_grpc_output",
    "C57_exact_refuted",
    "C57_rdb_refuted",
    "C57_grpc_refuted",
    "C57_accepts_refuted",
    "C57_float_value",
    "C57_shortest",
    "C57_length"
   ],
   "note": "FloatText.v models ryu's writer and serde_json's reader of floats (f64 rounding specified in F64.v, proved correct rounding to nearest even). Proved: text determines the float (C57_distinct), everything written is read and each float is near (C57_near), readable iff at most 127 deep (C57_readable), any number text is read near its value or refused as too large (C57_number, for texts under 2^30 bytes), short decimals exact (C57_short, C57_values), the consequences for RocksDB and gRPC. Exactness for all floats is false: 9007199254740991.0 is read as 9007199254740990.0 (C57_exact_refuted), which in RocksDB also leaves a stale index entry (C57_rdb_refuted) and changes the value sent over gRPC (C57_grpc_refuted); 1.7976931348623158e308 is refused although the nearest double is finite (C57_accepts_refuted). C57_float_value: the number a pattern stands for, in the text, is IEEE 754's. C57_shortest: the text written is the shortest decimal that stands for the float (a reader that rounds correctly reads the float, no decimal with fewer digits does, and none with the same last place is nearer). C57_length: it has at most 24 bytes, so ryu's unchecked 24-byte buffer is never overrun."
  },
  {
   "property": "C58",
   "status": "partial",
   "theorems": [
    "C58_truncated_partial",
    "C58_trailing_partial",
    "C58_sessions_partial",
    "C58_calm_partial",
    "C58_written_partial",
    "C58_power_refuted",
    "C58_damage_refuted",
    "C58_zero_file",
    "C58_zeros_refuted"
   ],
   "note": "Damage.v extends Persist.v with a disk that may lose what the operating system has not written back. Proved: truncated images refused, sessions with power cuts against the specification `returns`, written-back syncs survive. False without write-back: sync does not fsync, so a power cut soon after an acknowledged sync can lose everything, also what earlier syncs saved (C58_power_refuted); and damage other than truncation is not noticed (C58_damage_refuted: one changed byte, an edge without its vertex). Simplification: bytes that did not reach the disk are missing, not zero. C58_zero_file, C58_zeros_refuted: a lost file that reads as zeros is refused, a lost tail that reads as zeros may be accepted (the index then misses a vertex)."
  },
  {
   "property": "C59",
   "status": "partial",
   "theorems": [
    "C59_memory_deployment_partial",
    "C59_memory_restart_partial",
    "C59_rdb_deployment",
    "C59_rdb_restart",
    "C59_hidden_refuted",
    "C59_two_writers_refuted",
    "C59_max_open_files",
    "C59_arguments",
    "C59_rdb_opened",
    "C59_rdb_not_damaged",
    "C59_rdb_first_start",
    "C59_rdb_half_created_refuted",
    "C59_rdb_second_start",
    "C59_started",
    "C59_not_started",
    "C59_address_first",
    "C59_repair",
    "C59_address_once",
    "C59_dir_once",
    "C59_locality",
    "C59_memory_default"
   ],
   "note": "Startup.v models cli.rs, main.rs, run_with_plugins, the opening of a RocksDB directory step by step, and a machine with files and running servers. Proved: argument parsing, exactly when a start serves and what, addresses and directories used once, locality of file changes, restarts of RocksDB servers invisible (writes not failing, no --repair), in-memory servers one at a time on a path against the specification `kept` of Deploy.v (format limits and flush on drop as in C24). False in general: a first start on a RocksDB path killed while it creates its column families leaves a directory that can never be opened again (C59_rdb_half_created_refuted); Path::exists is false when metadata cannot be read, so the server starts empty and its next sync overwrites the data (C59_hidden_refuted); two in-memory servers may share a path and overwrite each other's synced data (C59_two_writers_refuted). Not modelled: clap's own splitting of the command line, symbolic links, what RocksDB's repair keeps, power cuts (C58) in the machine model."
  },
  {
   "property": "C60",
   "status": "partial",
   "theorems": [
    "C60_error_text",
    "C60_conversion_text",
    "C60_status_text",
    "C60_message_says",
    "C60_plugin_text_refuted",
    "C60_plugin_passed_text_partial",
    "C60_source",
    "C60_source_none",
    "C60_status",
    "C60_get",
    "C60_malformed",
    "C60_remote_error"
   ],
   "note": "Proved: texts of library and conversion errors are injective; codes and messages of statuses determine the cause; requests are refused as invalid exactly if they have a fault and the fault named is one they have (C60_malformed, C60_status; specification: the list `parts` of a message and `faulty`); remote failures carry the local error (C60_remote_error). False for plugin errors: InvalidArgument and Other have arbitrary texts that can equal any other error's (C60_plugin_text_refuted); a get that panics reports no status (C35_get_panic_refuted). That tonic delivers code and message unchanged is assumed; derived Debug texts are not modelled."
  },
  {
   "property": "C61",
   "status": "partial",
   "theorems": [
    "C61_memory_explained",
    "C61_memory_restored_partial",
    "C61_memory_synced_partial",
    "C61_memory_progress",
    "C61_rdb_explained_partial",
    "C61_rdb_opens_partial",
    "C61_rdb_requests_partial",
    "C61_rdb_starts_partial"
   ],
   "note": "In-memory server: C61_memory_explained (every history of requests and kills has a sequential explanation that agrees with real time), C61_memory_restored_partial and C61_memory_synced_partial (what the explanation keeps at a kill, by C50: format limits and flush of the last write assumed), C61_memory_progress. RocksDB: C61_rdb_explained_partial and C61_rdb_opens_partial for lives in which calls that overlap do not interfere (C28 shows it is false otherwise), with RocksDB's log recovered up to some moment not before an acknowledged sync was called; the same for requests to a server, with restarts: C61_rdb_requests_partial (specification: as_requests), C61_rdb_starts_partial (PropsOutageServer.v, without plugins); C28_rdb_apart_moment_partial is the same for any moment of one session. Values must be readable back (good_op) and there are fewer than 2^64 events."
  },
  {
   "property": "C62",
   "status": "partial",
   "theorems": [
    "C62_exact",
    "C62_unique",
    "C62_restart",
    "C62_shape",
    "C62_not_extreme",
    "C62_mem_new",
    "C62_rdb_new",
    "C62_mem_no_panic",
    "C62_processes_refuted"
   ],
   "note": "C62_exact (one or two processes), C62_unique, C62_restart, C62_shape, C62_not_extreme, C62_mem_new, C62_rdb_new, C62_mem_no_panic. False for processes that run at the same time (C62_processes_refuted): every process counts from zero with the same node id, so two clients that make an id in the same 100 ns make the same one and the second is refused. The generator of the uuid crate (not in /repo) is modelled from its documented behaviour."
  },
  {
   "property": "C63",
   "status": "proved",
   "theorems": [
    "C63_mem_paging",
    "C63_mem_next",
    "C63_mem_adding",
    "C63_rdb_paging",
    "C63_rdb_next",
    "C63_rdb_adding"
   ],
   "note": "C63_mem_paging, C63_rdb_paging (specification: scan, faithful), C63_mem_next, C63_rdb_next, C63_mem_adding. RocksDB: histories whose values are readable back (good_history). Calls are taken in the order in which they take effect (C27, C28)."
  },
  {
   "property": "C64",
   "status": "proved",
   "theorems": [
    "C64_rdb",
    "C64_mem_exact",
    "C64_mem_uncut",
    "C64_mem_number",
    "C64_cut_refuted",
    "C64_mem_write",
    "C64_mem_write_unseen",
    "C64_cut_write_refuted"
   ],
   "note": "C64_rdb, C64_mem_exact, C64_mem_uncut, C64_mem_number; C64_cut_refuted shows that a stage cut off by its limit may give other elements. C64_mem_write: a delete or set_properties acts alike whatever the order of the index lookups, as long as nothing was cut off; C64_cut_write_refuted: with a cut-off stage other elements may be deleted. Specification: start_of, from_index, same_answer, uncut, given; shows (Claims.v) for the database left behind. C64_mem_write_unseen: nor does any later query that reads no property index tell the two results apart."
  },
  {
   "property": "C65",
   "status": "proved",
   "theorems": [
    "C65_read",
    "C65_values",
    "C65_refused",
    "C65_unambiguous",
    "C65_request",
    "C65_written"
   ],
   "note": "C65_read, C65_values, C65_refused, C65_unambiguous, C65_request, C65_written. The grammar is a separate inductive definition (JsonGrammar.v). serde_json itself is a dependency, modelled in JsonText.v from its documented behaviour; the value of a float literal is C57's."
  },
  {
   "property": "C66",
   "status": "partial",
   "theorems": [
    "C66_reported",
    "C66_no_trace",
    "C66_database",
    "C66_linearizable_partial"
   ],
   "note": "C66_reported, C66_no_trace, C66_database, C66_linearizable_partial, C66_case. Missing: the counts of all vertices and edges, which take the error for an item (C56_rdb_count_refuted), and index_property, which remembers the name before it reads (C56_rdb_index_refuted), may not be among the calls whose read fails; an iterator that breaks off midway is taken to end its call at once (the code first uses the items that came before); linearizability needs the condition of C28_rdb_apart_partial on the remaining calls, without which it is false."
  }
 ]
}