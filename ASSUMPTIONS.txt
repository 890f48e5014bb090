C01_mem_no_dangling (PropsMem.v): Closed under the global context
C01_mem_vertices_exist (PropsMem.v): Closed under the global context
C01_mem_debug_no_dangling (PropsMemIndex.v): Closed under the global context
C02_mem_create_vertex (PropsMem.v): Closed under the global context
C02_rdb_create_vertex (PropsRdb.v): Closed under the global context
C03_mem_create_edge (PropsMem.v): Closed under the global context
C03_mem_idempotent (PropsMem.v): Closed under the global context
C03_rdb_create_edge (PropsRdb.v): Closed under the global context
C03_rdb_idempotent (PropsRdb.v): Closed under the global context
C04_mem_delete_vertices (PropsMem.v): Closed under the global context
C05_rdb_delete_vertices_partial (PropsRdb.v): Closed under the global context
C05_rdb_closed_partial (PropsRdbIndex.v): Closed under the global context
C05_rdb_inbound_refuted (PropsRdbIndex.v): Closed under the global context
C06_mem_delete_edges_partial (PropsMem.v): Closed under the global context
C06_rdb_delete_edges_partial (PropsRdb.v): Closed under the global context
C06_rdb_delete_edges_any_partial (PropsRdb.v): Closed under the global context
C06_rdb_delete_edges_tidy_partial (PropsRdbIndex.v): Closed under the global context
C06_rdb_dangling_refuted (PropsRdbIndex.v): Closed under the global context
C07_mem_set_vertices (PropsMem.v): Closed under the global context
C07_mem_set_edges (PropsMem.v): Closed under the global context
C07_mem_delete_vprops (PropsMem.v): Closed under the global context
C07_mem_delete_eprops (PropsMem.v): Closed under the global context
C07_mem_set_vertices_reads (PropsMem.v): Closed under the global context
C07_mem_set_edges_reads (PropsMem.v): Closed under the global context
C07_mem_delete_vprops_reads (PropsMem.v): Closed under the global context
C07_mem_delete_eprops_reads (PropsMem.v): Closed under the global context
C07_rdb_set_vertices (PropsRdb.v): Closed under the global context
C07_rdb_set_edges (PropsRdb.v): Closed under the global context
C07_rdb_delete_vprops (PropsRdb.v): Closed under the global context
C07_rdb_delete_eprops (PropsRdb.v): Closed under the global context
C07_rdb_set_vertices_reads (PropsRdbIndex.v): Closed under the global context
C07_rdb_set_edges_reads (PropsRdbIndex.v): Closed under the global context
C07_rdb_delete_vprops_reads (PropsRdbIndex.v): Closed under the global context
C07_rdb_delete_eprops_reads (PropsRdbIndex.v): Closed under the global context
C08_mem_query (PropsMem.v): Closed under the global context
C08_mem_query_indexed (PropsMemIndex.v): Closed under the global context
C08_mem_call (PropsMemIndex.v): Closed under the global context
C08_rdb_query (PropsRdb.v): Closed under the global context
C08_rdb_query_indexed (PropsRdbIndex.v): Closed under the global context
C08_rdb_call (PropsRdbIndex.v): Closed under the global context
C09_mem_range (PropsMem.v): Closed under the global context
C09_mem_pages (PropsMem.v): Closed under the global context
C09_rdb_range (PropsRdb.v): Closed under the global context
C09_rdb_pages (PropsRdb.v): Closed under the global context
C10_mem_pipe_limit (PropsMem.v): Closed under the global context
C10_rdb_pipe_limit (PropsRdb.v): Closed under the global context
C11_mem_includes (PropsMem.v): Closed under the global context
C11_mem_strip (PropsMem.v): Closed under the global context
C11_rdb_includes (PropsRdb.v): Closed under the global context
C11_rdb_strip (PropsRdb.v): Closed under the global context
C12_mem_count (PropsMem.v): Closed under the global context
C12_rdb_count (PropsRdb.v): Closed under the global context
C13_mem_built (PropsMem.v): Closed under the global context
C13_rdb_built (PropsRdb.v): Closed under the global context
C14_mem_debug_vertex_presence_partial (PropsMemIndex.v): Closed under the global context
C14_mem_debug_vertex_value_partial (PropsMemIndex.v): Closed under the global context
C14_mem_debug_edge_presence_partial (PropsMemIndex.v): Closed under the global context
C14_mem_debug_edge_value_partial (PropsMemIndex.v): Closed under the global context
C14_mem_vertex_presence_complete_partial (PropsMemIndex.v): Closed under the global context
C14_mem_vertex_value_complete_partial (PropsMemIndex.v): Closed under the global context
C14_mem_edge_presence_complete_partial (PropsMemIndex.v): Closed under the global context
C14_mem_edge_value_complete_partial (PropsMemIndex.v): Closed under the global context
C14_mem_release_refuted (PropsMemIndex.v): Closed under the global context
C14_mem_release_value_refuted (PropsMemIndex.v): Closed under the global context
C15_rdb_vertex_presence_partial (PropsRdbIndex.v): Closed under the global context
C15_rdb_edge_presence_partial (PropsRdbIndex.v): Closed under the global context
C15_rdb_vertex_value_hash_partial (PropsRdbIndex.v): Closed under the global context
C15_rdb_edge_value_hash_partial (PropsRdbIndex.v): Closed under the global context
C15_rdb_vertex_value_partial (PropsRdbIndex.v): Closed under the global context
C15_rdb_edge_value_partial (PropsRdbIndex.v): Closed under the global context
C15_rdb_hash_input_refuted (PropsRdbIndex.v): Closed under the global context
C15_rdb_bulk_duplicate_refuted (PropsRdbIndex.v): Closed under the global context
C15_rdb_lossy_refuted (PropsRdbIndex.v): Closed under the global context
C16_mem_not_indexed (PropsMem.v): Closed under the global context
C16_rdb_not_indexed (PropsRdb.v): Closed under the global context
C17_mem_panic_partial (PropsMem.v): Closed under the global context
C17_mem_debug_no_panic_partial (PropsMemIndex.v): Closed under the global context
C17_mem_max_uuid_refuted (PropsMemIndex.v): Closed under the global context
C17_mem_debug_orphan_refuted (PropsMemIndex.v): Closed under the global context
C18_next_uuid_successor (PropsData.v): Closed under the global context
C18_next_uuid_largest (PropsData.v): Closed under the global context
C19_keys_injective (PropsData.v): Closed under the global context
C19_keys_decode (PropsData.v): Closed under the global context
C19_prefix_scan (PropsData.v): Closed under the global context
C19_prefix_owner (PropsData.v): Closed under the global context
C20_rdb_concurrent (PropsConc.v): Closed under the global context
C20_rdb_reads (PropsRdb.v): Closed under the global context
C20_rdb_no_panic (PropsRdb.v): Closed under the global context
C20_rdb_errors (PropsRdb.v): Closed under the global context
C20_rdb_undecodable_refuted (PropsRdbIndex.v): Closed under the global context
C20_rdb_text (PropsText.v): Closed under the global context
C20_rdb_text_no_panic (PropsText.v): Closed under the global context
C20_rdb_deep_refuted (PropsText.v): Closed under the global context
C21_rdb_concurrent (PropsConc.v): Closed under the global context
C21_rdb_mirror (PropsRdb.v): Closed under the global context
C22_rdb_outbound (PropsRdb.v): Closed under the global context
C22_rdb_returned_edges (PropsRdbIndex.v): Closed under the global context
C23_rdb_crash (PropsRdbIndex.v): Closed under the global context
C23_rdb_synced (PropsRdbIndex.v): Closed under the global context
C23_rdb_crash_any (PropsRdbIndex.v): Closed under the global context
C23_rdb_failed_index_refuted (PropsRdbIndex.v): Closed under the global context
C24_mem_reopen_partial (PropsPersist.v): Closed under the global context
C24_mem_sync_atomic_partial (PropsPersist.v): Closed under the global context
C24_mem_sync_failed_partial (PropsPersist.v): Closed under the global context
C24_mem_sessions_partial (PropsPersist.v): Closed under the global context
C24_mem_silent_flush_refuted (PropsPersist.v): Closed under the global context
C25_mem_bulk_partial (PropsMem.v): Closed under the global context
C25_rdb_bulk_partial (PropsRdbIndex.v): Closed under the global context
C25_rdb_overwrite_refuted (PropsRdbIndex.v): Closed under the global context
C25_rdb_dangling_refuted (PropsRdbIndex.v): Closed under the global context
C26_mem_failed (PropsMem.v): Closed under the global context
C26_mem_get (PropsMem.v): Closed under the global context
C26_rdb_get (PropsRdb.v): Closed under the global context
C26_rdb_failed (PropsRdb.v): Closed under the global context
C27_mem_linearizable (PropsConc.v): Closed under the global context
C27_mem_state (PropsConc.v): Closed under the global context
C27_mem_no_dangling (PropsConc.v): Closed under the global context
C27_mem_created_once (PropsConc.v): Closed under the global context
C27_mem_progress (PropsConc.v): Closed under the global context
C28_rdb_state_queries_partial (PropsConc.v): Closed under the global context
C28_rdb_vertex_presence_complete_partial (PropsConc.v): Closed under the global context
C28_rdb_vertex_value_complete_partial (PropsConc.v): Closed under the global context
C28_rdb_edge_presence_complete_partial (PropsConc.v): Closed under the global context
C28_rdb_edge_value_complete_partial (PropsConc.v): Closed under the global context
C28_rdb_guard_exclusive_partial (PropsConc.v): Closed under the global context
C28_rdb_can_finish_partial (PropsConc.v): Closed under the global context
C28_rdb_linearizable_partial (PropsConc.v): Closed under the global context
C28_rdb_orderly_partial (PropsConc.v): Closed under the global context
C28_rdb_apart_partial (PropsConc.v): Closed under the global context
C28_rdb_single_access_partial (PropsConc.v): Closed under the global context
C28_rdb_created_twice_refuted (PropsConc.v): Closed under the global context
C28_rdb_stale_index_refuted (PropsConc.v): Closed under the global context
C28_rdb_dangling_edge_refuted (PropsConc.v): Closed under the global context
C28_rdb_apart_moment_partial (PropsOutageRdb.v): Closed under the global context
C29_backends_agree_partial (PropsAgree.v): Closed under the global context
C29_backends_agree_simple_partial (PropsAgree.v): Closed under the global context
C29_lookups_agree_partial (PropsAgree.v): Closed under the global context
C29_edge_order_refuted (PropsAgree.v): Closed under the global context
C29_limit_refuted (PropsAgree.v): Closed under the global context
C29_delete_refuted (PropsAgree.v): Closed under the global context
C29_bulk_refuted (PropsAgree.v): Closed under the global context
C29_panic_refuted (PropsAgree.v): Closed under the global context
C30_json_eq_partial (PropsData.v): Closed under the global context
C30_key_eq_equivalence_partial (PropsData.v): Closed under the global context
C30_small_ints_exact_partial (PropsData.v): Closed under the global context
C30_transitive_refuted (PropsData.v): Closed under the global context
C30_hash_refuted (PropsData.v): Closed under the global context
C30_hash_zero_refuted (PropsData.v): Closed under the global context
C31_order_partial (PropsData.v): Closed under the global context
C31_antisymmetric_partial (PropsData.v): Closed under the global context
C31_integers_exact_partial (PropsData.v): Closed under the global context
C31_int_to_double_partial (PropsData.v): Closed under the global context
C31_transitive_partial (PropsData.v): Closed under the global context
C31_transitive_refuted (PropsData.v): Closed under the global context
C31_patterns (PropsIeee.v): Closed under the global context
C31_float_value (PropsIeee.v): Closed under the global context
C31_floats (PropsIeee.v): Closed under the global context
C32_hash_input_partial (PropsData.v): Closed under the global context
C32_same_value_same_input_partial (PropsData.v): Closed under the global context
C32_nested_refuted (PropsData.v): Closed under the global context
C32_kind_refuted (PropsData.v): Closed under the global context
C32_sign_refuted (PropsData.v): Closed under the global context
C33_query (PropsProto.v): Closed under the global context
C33_output (PropsProto.v): Closed under the global context
C33_bulk_item (PropsProto.v): Closed under the global context
C33_uuid (PropsProto.v): Closed under the global context
C33_identifier (PropsProto.v): Closed under the global context
C33_json (PropsProto.v): Closed under the global context
C33_vertex (PropsProto.v): Closed under the global context
C33_edge (PropsProto.v): Closed under the global context
C33_direction (PropsProto.v): Closed under the global context
C33_vertex_property (PropsProto.v): Closed under the global context
C33_edge_property (PropsProto.v): Closed under the global context
C33_named_property (PropsProto.v): Closed under the global context
C33_set_properties_request (PropsProto.v): Closed under the global context
C33_index_request (PropsProto.v): Closed under the global context
C33_injective (PropsProto.v): Closed under the global context
C33_text (PropsText.v): Closed under the global context
C33_deep_refuted (PropsText.v): Closed under the global context
C34_malformed (PropsProto.v): Closed under the global context
C34_bulk_all_or_nothing (PropsProto.v): Closed under the global context
C34_bulk_malformed (PropsProto.v): Closed under the global context
C34_wellformed_accepted (PropsProto.v): Closed under the global context
C34_response (PropsProto.v): Closed under the global context
C34_unknown_direction_refuted (PropsProto.v): Closed under the global context
C35_remote_is_local_partial (PropsProto.v): Closed under the global context
C35_ping_partial (PropsProto.v): Closed under the global context
C35_plugin_partial (PropsProto.v): Closed under the global context
C35_session_partial (PropsProto.v): Closed under the global context
C35_memory_session_partial (PropsProto.v): Closed under the global context
C35_rocksdb_session_partial (PropsProto.v): Closed under the global context
C35_get_panic_refuted (PropsProto.v): Closed under the global context
C35_deep_refuted (PropsText.v): Closed under the global context
C36_identifier_new (PropsData.v): Closed under the global context
C36_identifier_errors (PropsData.v): Closed under the global context
C36_identifier_stored (PropsData.v): Closed under the global context
C37_all_once_partial (PropsPlugin.v): Closed under the global context
C37_error_origin_partial (PropsPlugin.v): Closed under the global context
C37_errors_reported_partial (PropsPlugin.v): Closed under the global context
C37_never_twice_partial (PropsPlugin.v): Closed under the global context
C37_threads_partial (PropsPlugin.v): Closed under the global context
C37_progress_partial (PropsPlugin.v): Closed under the global context
C37_terminates_partial (PropsPlugin.v): Closed under the global context
C37_naive_vertex_count_partial (PropsPlugin.v): Closed under the global context
C37_naive_vertex_count_ok_partial (PropsPlugin.v): Closed under the global context
C37_mem_count_is_query_partial (PropsPlugin.v): Closed under the global context
C37_rdb_count_is_query_partial (PropsPlugin.v): Closed under the global context
C37_panic_refuted (PropsPlugin.v): Closed under the global context
C38_starts (PropsPlugin.v): Closed under the global context
C38_first_mismatch (PropsPlugin.v): Closed under the global context
C38_last_wins (PropsPlugin.v): Closed under the global context
C38_known_names (PropsPlugin.v): Closed under the global context
C38_unknown_plugin (PropsPlugin.v): Closed under the global context
C38_no_plugins (PropsPlugin.v): Closed under the global context
C38_macro_version_refuted (PropsPlugin.v): Closed under the global context
C39_mem_debug_idempotent_partial (PropsMemIndex.v): Closed under the global context
C39_rdb_idempotent_partial (PropsRdbIndex.v): Closed under the global context
C39_rdb_reopen_partial (PropsRdbIndex.v): Closed under the global context
C39_rdb_retry_refuted (PropsRdbIndex.v): Closed under the global context
C40_mem_fresh (PropsMem.v): Closed under the global context
C40_rdb_fresh (PropsRdb.v): Closed under the global context
C41_mem_debug_partial (PropsMemIndex.v): Closed under the global context
C41_mem_release_refuted (PropsMemIndex.v): Closed under the global context
C41_mem_debug_bulk_refuted (PropsMemIndex.v): Closed under the global context
C41_rdb_partial (PropsRdbIndex.v): Closed under the global context
C41_rdb_bulk_refuted (PropsRdbIndex.v): Closed under the global context
C42_text_roundtrip (PropsText.v): Closed under the global context
C42_text_integers (PropsText.v): Closed under the global context
C42_text_too_deep (PropsText.v): Closed under the global context
C42_roundtrip_iff (PropsText.v): Closed under the global context
C42_text_injective (PropsText.v): Closed under the global context
C42_read_valid (PropsText.v): Closed under the global context
C42_read_depth (PropsText.v): Closed under the global context
C42_reread (PropsText.v): Closed under the global context
C42_rdb_good (PropsText.v): Closed under the global context
C42_rdb_good_history (PropsText.v): Closed under the global context
C43_result_kind (PropsQuery.v): Closed under the global context
C43_output_len (PropsQuery.v): Closed under the global context
C43_output_len_refuted (PropsQuery.v): Closed under the global context
C43_output_len_count (PropsQuery.v): Closed under the global context
C43_extract (PropsQuery.v): Closed under the global context
C43_update_kinds (PropsQuery.v): Closed under the global context
C43_builders_exact (PropsQuery.v): Closed under the global context
C43_rejected_fail (PropsQuery.v): Closed under the global context
C43_mem_answerable (PropsQuery.v): Closed under the global context
C43_rdb_answerable (PropsQuery.v): Closed under the global context
C44_mem_edges_of (PropsNav.v): Closed under the global context
C44_mem_ends (PropsNav.v): Closed under the global context
C44_mem_ends_exist (PropsNav.v): Closed under the global context
C44_mem_all_outbound (PropsNav.v): Closed under the global context
C44_mem_all_inbound (PropsNav.v): Closed under the global context
C44_rdb_edges_of_partial (PropsNav.v): Closed under the global context
C44_rdb_ends (PropsNav.v): Closed under the global context
C44_rdb_all_outbound_partial (PropsNav.v): Closed under the global context
C44_rdb_all_inbound_partial (PropsNav.v): Closed under the global context
C44_rdb_inbound_refuted (PropsNav.v): Closed under the global context
C45_mem_vertex_edges (PropsNav.v): Closed under the global context
C45_mem_vertex_properties_partial (PropsNav.v): Closed under the global context
C45_mem_debug_edge_properties_partial (PropsNav.v): Closed under the global context
C45_mem_release_edge_refuted (PropsNav.v): Closed under the global context
C45_rdb_vertex_edges_partial (PropsNav.v): Closed under the global context
C45_rdb_vertex_outbound_partial (PropsNav.v): Closed under the global context
C45_rdb_vertex_properties_partial (PropsNav.v): Closed under the global context
C45_rdb_edge_properties_partial (PropsNav.v): Closed under the global context
C45_rdb_inbound_refuted (PropsNav.v): Closed under the global context
C46_uuid_text (PropsCli.v): Closed under the global context
C46_uuid_printed (PropsCli.v): Closed under the global context
C46_uuid_unambiguous (PropsCli.v): Closed under the global context
C46_unambiguous (PropsCli.v): Closed under the global context
C46_invalid_no_effect (PropsCli.v): Closed under the global context
C46_command_partial (PropsCli.v): Closed under the global context
C46_ping (PropsCli.v): Closed under the global context
C46_memory_session_partial (PropsCli.v): Closed under the global context
C46_rocksdb_session_partial (PropsCli.v): Closed under the global context
C46_session_total (PropsCli.v): Closed under the global context
C46_values_ok (PropsCli.v): Closed under the global context
C47_query (PropsWire.v): Closed under the global context
C47_stages (PropsWire.v): Closed under the global context
C47_query_unambiguous (PropsWire.v): Closed under the global context
C47_request (PropsWire.v): Closed under the global context
C47_output (PropsWire.v): Closed under the global context
C47_output_large (PropsWire.v): Closed under the global context
C47_remote_is_local_partial (PropsWire.v): Closed under the global context
C47_plugin_partial (PropsWire.v): Closed under the global context
C47_session_partial (PropsWire.v): Closed under the global context
C47_deep_refuted (PropsWire.v): Closed under the global context
C47_deep_set_refuted (PropsWire.v): Closed under the global context
C47_large_request (PropsWire.v): Closed under the global context
C47_large_answer_refuted (PropsWire.v): Closed under the global context
C47_garbage (PropsWire.v): Closed under the global context
C47_query_extended (PropsWire.v): Closed under the global context
C47_vertices_large (PropsWire.v): Closed under the global context
C47_edges_large (PropsWire.v): Closed under the global context
C47_listing_refuted (PropsWire.v): Closed under the global context
C47_memory_session_partial (PropsWire.v): Closed under the global context
C47_rocksdb_session_partial (PropsWire.v): Closed under the global context
C47_json_text (PropsWire.v): Closed under the global context
C48_memory_history (PropsServer.v): Closed under the global context
C48_rocksdb_history (PropsServer.v): Closed under the global context
C48_memory_no_dangling (PropsServer.v): Closed under the global context
C48_rocksdb_reads (PropsServer.v): Closed under the global context
C48_rocksdb_no_panic (PropsServer.v): Closed under the global context
C48_rocksdb_mirror (PropsServer.v): Closed under the global context
C48_rocksdb_outbound (PropsServer.v): Closed under the global context
C48_reader (PropsServer.v): Closed under the global context
C48_hello_world (PropsServer.v): Closed under the global context
C48_no_rollback (PropsServer.v): Closed under the global context
C48_panic_poisons (PropsServer.v): Closed under the global context
C49_memory_linearizable (PropsClients.v): Closed under the global context
C49_memory_state (PropsClients.v): Closed under the global context
C49_memory_no_dangling (PropsClients.v): Closed under the global context
C49_memory_progress (PropsClients.v): Closed under the global context
C49_memory_independent (PropsClients.v): Closed under the global context
C49_memory_ping (PropsClients.v): Closed under the global context
C49_memory_plugin_atomic (PropsClients.v): Closed under the global context
C49_alone (PropsClients.v): Closed under the global context
C49_rocksdb_plugin_refuted (PropsClients.v): Closed under the global context
C49_rocksdb_apart_partial (PropsServerConc.v): Closed under the global context
C49_rocksdb_single_access_partial (PropsServerConc.v): Closed under the global context
C49_rocksdb_mirror (PropsServerConc.v): Closed under the global context
C49_rocksdb_no_call (PropsServerConc.v): Closed under the global context
C49_rocksdb_once (PropsServerConc.v): Closed under the global context
C49_rocksdb_progress (PropsServerConc.v): Closed under the global context
C49_rocksdb_refuted (PropsServerConc.v): Closed under the global context
C50_memory_deployment_partial (PropsDeploy.v): Closed under the global context
C50_memory_synced_partial (PropsDeploy.v): Closed under the global context
C50_rocksdb_deployment (PropsDeploy.v): Closed under the global context
C50_rocksdb_synced (PropsDeploy.v): Closed under the global context
C50_memory_sync_refuted (PropsDeploy.v): Closed under the global context
C50_memory_syncing_plugins_partial (PropsDeployPlugins.v): Closed under the global context
C50_memory_synced_by_plugins_partial (PropsDeployPlugins.v): Closed under the global context
C50_memory_plugin_halved_refuted (PropsDeployPlugins.v): Closed under the global context
C51_settings (PropsBuilders.v): Closed under the global context
C51_constructors (PropsBuilders.v): Closed under the global context
C51_builds (PropsBuilders.v): Closed under the global context
C51_memory_chain (PropsBuilders.v): Closed under the global context
C51_memory_debug_chain (PropsBuilders.v): Closed under the global context
C51_rocksdb_chain (PropsBuilders.v): Closed under the global context
C51_direction_text (PropsBuilders.v): Closed under the global context
C51_direction_spelling (PropsBuilders.v): Closed under the global context
C52_memory_laws (PropsAlgebra.v): Closed under the global context
C52_rocksdb_laws (PropsAlgebra.v): Closed under the global context
C52_memory_lookups (PropsAlgebra.v): Closed under the global context
C52_rocksdb_lookups (PropsAlgebra.v): Closed under the global context
C53_meaning (PropsMeaning.v): Closed under the global context
C53_client_meaning (PropsMeaning.v): Closed under the global context
C53_any_client (PropsMeaning.v): Closed under the global context
C53_request (PropsSchema.v): Closed under the global context
C53_served (PropsSchema.v): Closed under the global context
C53_client (PropsSchema.v): Closed under the global context
C53_server (PropsSchema.v): Closed under the global context
C53_response (PropsSchema.v): Closed under the global context
C54_mem_repeat (PropsRetry.v): Closed under the global context
C54_mem_many (PropsRetry.v): Closed under the global context
C54_mem_debug_repeat_partial (PropsRetry.v): Closed under the global context
C54_rdb_repeat (PropsRetry.v): Closed under the global context
C54_rdb_attempts (PropsRetry.v): Closed under the global context
C54_rdb_repeat_indexed_partial (PropsRetry.v): Closed under the global context
C54_mem_unseen (PropsRetry.v): Closed under the global context
C54_rdb_unseen (PropsRetry.v): Closed under the global context
C54_mem_bulk_refuted (PropsRetry.v): Closed under the global context
C54_mem_limit_refuted (PropsRetry.v): Closed under the global context
C54_rdb_limit_refuted (PropsRetry.v): Closed under the global context
C54_mem_spread_refuted (PropsRetry.v): Closed under the global context
C54_rdb_spread_refuted (PropsRetry.v): Closed under the global context
C55_rdb_either_order (PropsCommute.v): Closed under the global context
C55_rdb_unaffected (PropsCommute.v): Closed under the global context
C55_rdb_past (PropsCommute.v): Closed under the global context
C55_mem_either_order (PropsCommute.v): Closed under the global context
C55_mem_unaffected (PropsCommute.v): Closed under the global context
C55_mem_past (PropsCommute.v): Closed under the global context
C56_rdb_no_fault (PropsFault.v): Closed under the global context
C56_rdb_call_partial (PropsFault.v): Closed under the global context
C56_rdb_effect (PropsFault.v): Closed under the global context
C56_rdb_acknowledged (PropsFault.v): Closed under the global context
C56_rdb_get_partial (PropsFault.v): Closed under the global context
C56_rdb_history (PropsFault.v): Closed under the global context
C56_rdb_meaning_partial (PropsFault.v): Closed under the global context
C56_rdb_count (PropsFault.v): Closed under the global context
C56_rdb_page (PropsFault.v): Closed under the global context
C56_rdb_open (PropsFault.v): Closed under the global context
C56_rdb_count_refuted (PropsFault.v): Closed under the global context
C56_rdb_index_refuted (PropsFault.v): Closed under the global context
C57_short (PropsFloat.v): Closed under the global context
C57_values (PropsFloat.v): Closed under the global context
C57_distinct (PropsFloat.v): Closed under the global context
C57_near (PropsFloat.v): Closed under the global context
C57_readable (PropsFloat.v): Closed under the global context
C57_read_valid (PropsFloat.v): Closed under the global context
C57_number (PropsFloat.v): Closed under the global context
C57_rdb_good_history (PropsFloat.v): Closed under the global context
C57_rdb_set_get (PropsFloat.v): Closed under the global context
C57_rdb_reads (PropsFloat.v): Closed under the global context
C57_grpc_query (PropsFloat.v): Closed under the global context
C57_grpc_output (PropsFloat.v): Closed under the global context
C57_exact_refuted (PropsFloat.v): Closed under the global context
C57_rdb_refuted (PropsFloat.v): Closed under the global context
C57_grpc_refuted (PropsFloat.v): Closed under the global context
C57_accepts_refuted (PropsFloat.v): Closed under the global context
C57_float_value (PropsIeee.v): Closed under the global context
C57_shortest (PropsShort.v): Closed under the global context
C57_length (PropsShort.v): Closed under the global context
C58_truncated_partial (PropsDamage.v): Closed under the global context
C58_trailing_partial (PropsDamage.v): Closed under the global context
C58_sessions_partial (PropsDamage.v): Closed under the global context
C58_calm_partial (PropsDamage.v): Closed under the global context
C58_written_partial (PropsDamage.v): Closed under the global context
C58_power_refuted (PropsDamage.v): Closed under the global context
C58_damage_refuted (PropsDamage.v): Closed under the global context
C58_zero_file (PropsDamage.v): Closed under the global context
C58_zeros_refuted (PropsDamage.v): Closed under the global context
C59_memory_deployment_partial (PropsStarted.v): Closed under the global context
C59_memory_restart_partial (PropsStarted.v): Closed under the global context
C59_rdb_deployment (PropsStarted.v): Closed under the global context
C59_rdb_restart (PropsStarted.v): Closed under the global context
C59_hidden_refuted (PropsStarted.v): Closed under the global context
C59_two_writers_refuted (PropsStarted.v): Closed under the global context
C59_max_open_files (PropsStartup.v): Closed under the global context
C59_arguments (PropsStartup.v): Closed under the global context
C59_rdb_opened (PropsStartup.v): Closed under the global context
C59_rdb_not_damaged (PropsStartup.v): Closed under the global context
C59_rdb_first_start (PropsStartup.v): Closed under the global context
C59_rdb_half_created_refuted (PropsStartup.v): Closed under the global context
C59_rdb_second_start (PropsStartup.v): Closed under the global context
C59_started (PropsStartup.v): Closed under the global context
C59_not_started (PropsStartup.v): Closed under the global context
C59_address_first (PropsStartup.v): Closed under the global context
C59_repair (PropsStartup.v): Closed under the global context
C59_address_once (PropsStartup.v): Closed under the global context
C59_dir_once (PropsStartup.v): Closed under the global context
C59_locality (PropsStartup.v): Closed under the global context
C59_memory_default (PropsStartup.v): Closed under the global context
C60_error_text (PropsErrors.v): Closed under the global context
C60_conversion_text (PropsErrors.v): Closed under the global context
C60_status_text (PropsErrors.v): Closed under the global context
C60_message_says (PropsErrors.v): Closed under the global context
C60_plugin_text_refuted (PropsErrors.v): Closed under the global context
C60_plugin_passed_text_partial (PropsErrors.v): Closed under the global context
C60_source (PropsErrors.v): Closed under the global context
C60_source_none (PropsErrors.v): Closed under the global context
C60_status (PropsErrors.v): Closed under the global context
C60_get (PropsErrors.v): Closed under the global context
C60_malformed (PropsErrors.v): Closed under the global context
C60_remote_error (PropsErrors.v): Closed under the global context
C61_memory_explained (PropsOutage.v): Closed under the global context
C61_memory_restored_partial (PropsOutage.v): Closed under the global context
C61_memory_synced_partial (PropsOutage.v): Closed under the global context
C61_memory_progress (PropsOutage.v): Closed under the global context
C61_rdb_explained_partial (PropsOutageRdb.v): Closed under the global context
C61_rdb_opens_partial (PropsOutageRdb.v): Closed under the global context
C61_rdb_requests_partial (PropsOutageServer.v): Closed under the global context
C61_rdb_starts_partial (PropsOutageServer.v): Closed under the global context
C62_exact (PropsFresh.v): Closed under the global context
C62_unique (PropsFresh.v): Closed under the global context
C62_restart (PropsFresh.v): Closed under the global context
C62_shape (PropsFresh.v): Closed under the global context
C62_not_extreme (PropsFresh.v): Closed under the global context
C62_mem_new (PropsFresh.v): Closed under the global context
C62_rdb_new (PropsFresh.v): Closed under the global context
C62_mem_no_panic (PropsFresh.v): Closed under the global context
C62_processes_refuted (PropsFresh.v): Closed under the global context
C63_mem_paging (PropsPaging.v): Closed under the global context
C63_mem_next (PropsPaging.v): Closed under the global context
C63_mem_adding (PropsPaging.v): Closed under the global context
C63_rdb_paging (PropsPaging.v): Closed under the global context
C63_rdb_next (PropsPaging.v): Closed under the global context
C63_rdb_adding (PropsPaging.v): Closed under the global context
C64_rdb (PropsRepeatRead.v): Closed under the global context
C64_mem_exact (PropsRepeatRead.v): Closed under the global context
C64_mem_uncut (PropsRepeatRead.v): Closed under the global context
C64_mem_number (PropsRepeatRead.v): Closed under the global context
C64_cut_refuted (PropsRepeatRead.v): Closed under the global context
C64_mem_write (PropsRepeatWrite.v): Closed under the global context
C64_mem_write_unseen (PropsRepeatWrite.v): Closed under the global context
C64_cut_write_refuted (PropsRepeatWrite.v): Closed under the global context
C65_read (PropsGrammar.v): Closed under the global context
C65_values (PropsGrammar.v): Closed under the global context
C65_refused (PropsGrammar.v): Closed under the global context
C65_unambiguous (PropsGrammar.v): Closed under the global context
C65_request (PropsGrammar.v): Closed under the global context
C65_written (PropsGrammar.v): Closed under the global context
C66_reported (PropsFaultConc.v): Closed under the global context
C66_no_trace (PropsFaultConc.v): Closed under the global context
C66_database (PropsFaultConc.v): Closed under the global context
C66_linearizable_partial (PropsFaultConc.v): Closed under the global context
