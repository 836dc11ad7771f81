# Print Assumptions of the property theorems

Written by `tools/mkassumptions.py`. 320 of 320 are closed under the global context (no axioms at all).

| theorem | file | assumptions |
|---|---|---|
| C01_conformance | PropsCodec.v | none |
| C02_minimal | PropsCodec.v | none |
| C03_rejects_iff | PropsCodec.v | none |
| C04_int_kinds_partial | PropsCodec.v | none |
| C04_refuted | PropsCodec.v | none |
| C05_prefix_free | PropsCodec.v | none |
| C06_round_trip | PropsCodec.v | none |
| C07_refuted_strings | PropsCodec.v | none |
| C07_refuted_long_strings | PropsCodec.v | none |
| C07_refuted_lists | PropsCodec.v | none |
| C07_refuted_maps | PropsCodec.v | none |
| C08_accepts_all | PropsCodec.v | none |
| C09_terminates_partial | PropsCodec.v | none |
| C09_refuted | PropsCodec.v | none |
| C10_truncation_partial | PropsCodec.v | none |
| C10_refuted | PropsCodec.v | none |
| C11_types | PropsCodec.v | none |
| C12_map_order | PropsCodec.v | none |
| C12_lookup | PropsCodec.v | none |
| C13_framing | PropsCodec.v | none |
| C13_framing_encode | PropsCodec.v | none |
| C14_exact_partial | PropsCodec.v | none |
| C14_chunk_bound_partial | PropsCodec.v | none |
| C14_refuted | PropsCodec.v | none |
| C15_exact_partial | PropsCodec.v | none |
| C15_terminator_partial | PropsCodec.v | none |
| C15_refuted_zero | PropsCodec.v | none |
| C15_refuted | PropsCodec.v | none |
| C16_segmentation | PropsCodec.v | none |
| C16_messages_in_order | PropsCodec.v | none |
| C17_write_failure | PropsCodec.v | none |
| C17_connection | PropsFault.v | none |
| C18_rejected_partial | PropsCodec.v | none |
| C18_refuted | PropsCodec.v | none |
| C19_chunk_size_independent | PropsCodec.v | none |
| C19_same_message | PropsCodec.v | none |
| C20_connection_partial | PropsFault.v | none |
| C20_handshake_partial | PropsMisc.v | none |
| C20_refuted | PropsMisc.v | none |
| C20_offer | PropsMisc.v | none |
| C20_exact_partial | PropsOpen.v | none |
| C21_calls | PropsBolt.v | none |
| C21_stmt_calls | PropsBolt.v | none |
| C21_tx_calls | PropsBolt.v | none |
| C21_rows | PropsBolt.v | none |
| C21_innermost | PropsMisc.v | none |
| C21_every_error | PropsMisc.v | none |
| C22_rows_affected | PropsMisc.v | none |
| C22_only_counters | PropsMisc.v | none |
| C22_panics | PropsMisc.v | none |
| C22_last_insert_id | PropsMisc.v | none |
| C22_names | PropsNames.v | none |
| C23_conn_string | PropsMisc.v | none |
| C23_timeout_partial | PropsMisc.v | none |
| C23_refuted | PropsMisc.v | none |
| C23_names | PropsNames.v | none |
| C24_verification | PropsMisc.v | none |
| C24_tls_iff | PropsMisc.v | none |
| C24_cert_needs_key | PropsMisc.v | none |
| C24_credentials | PropsMisc.v | none |
| C24_names | PropsNames.v | none |
| C24_init | PropsNames.v | none |
| C25_one_statement | PropsSession.v | none |
| C25_refused | PropsSession.v | none |
| C25_one_row_set | PropsSession.v | none |
| C26_closed_refuses | PropsSession.v | none |
| C26_closes_statements | PropsSession.v | none |
| C26_close_again | PropsSession.v | none |
| C27_statement | PropsSession.v | none |
| C27_rows | PropsSession.v | none |
| C27_transaction | PropsSession.v | none |
| C27_close_again | PropsSession.v | none |
| C27_permanent | PropsSession.v | none |
| C27_closes | PropsSession.v | none |
| C28_own_answers | PropsBolt.v | none |
| C29_connection_usable | PropsBolt.v | none |
| C29_statement_usable | PropsBolt.v | none |
| C29_transaction | PropsBolt.v | none |
| C29_query_pipeline_needs_close | PropsBolt.v | none |
| C30_rows_refuted | PropsBolt.v | none |
| C30_statement_refuted | PropsBolt.v | none |
| C30_pipeline_refuted | PropsBolt.v | none |
| C30_partial | PropsBolt.v | none |
| C31_rows_in_order | PropsBolt.v | none |
| C31_all | PropsBolt.v | none |
| C31_sql | PropsBolt.v | none |
| C31_query_all | PropsBolt.v | none |
| C32_refuted | PropsBolt.v | none |
| C32_partial | PropsBolt.v | none |
| C33_exec_pipeline | PropsBolt.v | none |
| C33_query_pipeline | PropsBolt.v | none |
| C34_refuted | PropsBolt.v | none |
| C34_partial | PropsBolt.v | none |
| C35_close_early | PropsBolt.v | none |
| C35_pipeline_close_early | PropsBolt.v | none |
| C36_refuted_swapped_answer | PropsBolt.v | none |
| C36_refuted_pipeline | PropsBolt.v | none |
| C36_connection_partial | PropsBolt.v | none |
| C36_statement_partial | PropsBolt.v | none |
| C37_refuted | PropsBolt.v | none |
| C37_quiet_partial | PropsBolt.v | none |
| C37_sends_partial | PropsBolt.v | none |
| C37_words | PropsNames.v | none |
| C38_refuted_second_begin | PropsBolt.v | none |
| C38_server_partial | PropsBolt.v | none |
| C38_refuted_close | PropsBolt.v | none |
| C38_refuted_never_rolled_back | PropsBolt.v | none |
| C39_network_errors_partial | PropsSession.v | none |
| C39_refuted_eof | PropsSession.v | none |
| C39_refuted_query_all | PropsSession.v | none |
| C40_finite_server_partial | PropsSession.v | none |
| C40_refuted | PropsSession.v | none |
| C40_hears_partial | PropsTerm.v | none |
| C41_partial_bound | PropsPool.v | none |
| C41_partial_no_blocking | PropsPool.v | none |
| C41_initialize | PropsPool.v | none |
| C41_calls | PropsPool.v | none |
| C41_refuted_initialize_twice | PropsPool.v | none |
| C41_refuted | PropsPool.v | none |
| C41_refuted_double_close | PropsPool.v | none |
| C42_partial | PropsPool.v | none |
| C42_partial_once | PropsPool.v | none |
| C42_refuted | PropsPool.v | none |
| C43_refuted_any_network | PropsPool.v | none |
| C43_partial | PropsPool.v | none |
| C43_refuted | PropsPool.v | none |
| C44_partial | PropsPool.v | none |
| C44_refuted_initialize | PropsPool.v | none |
| C44_refuted | PropsPool.v | none |
| C45_partial_closed | PropsPool.v | none |
| C45_partial_refuses | PropsPool.v | none |
| C45_partial_never_held_up | PropsPool.v | none |
| C45_partial_returns | PropsPool.v | none |
| C45_refuted | PropsPool.v | none |
| C45_refuted_while_waiting | PropsPool.v | none |
| C46_partial | PropsPool.v | none |
| C46_refuted_rows | PropsPool.v | none |
| C46_refuted_transaction | PropsPool.v | none |
| C46_next_user_partial | PropsShare.v | none |
| C47_partial | PropsPool.v | none |
| C47_partial_replaced | PropsPool.v | none |
| C47_refuted_end_of_stream | PropsPool.v | none |
| C47_refuted | PropsPool.v | none |
| C48_args | PropsMisc.v | none |
| C48_not_bytes | PropsMisc.v | none |
| C48_panics | PropsMisc.v | none |
| C49_exact_partial | PropsExact.v | none |
| C49_next_partial | PropsMisc.v | none |
| C49_refuted | PropsMisc.v | none |
| C49_panics | PropsMisc.v | none |
| C50_columns | PropsMisc.v | none |
| C50_names | PropsNames.v | none |
| C51_replay_partial | PropsMisc.v | none |
| C51_refuted_short_read | PropsMisc.v | none |
| C51_refuted_one_byte | PropsMisc.v | none |
| C51_program_partial | PropsReplay.v | none |
| C51_exactly | PropsReplay.v | none |
| C52_levels | PropsMisc.v | none |
| C52_monotone | PropsMisc.v | none |
| C52_unknown | PropsMisc.v | none |
| C52_names | PropsNames.v | none |
| C53_float32 | PropsCodec.v | none |
| C54_end_partial | PropsSession.v | none |
| C54_refuted | PropsSession.v | none |
| C54_refuted_bytes | PropsWire.v | none |
| C55_partial | PropsPanic.v | none |
| C55_others_partial | PropsPanic.v | none |
| C55_lost_refuted | PropsPanic.v | none |
| C55_closed_refuted | PropsPanic.v | none |
| C55_refused_refuted | PropsPanic.v | none |
| C55_all_refuted | PropsPanic.v | none |
| C55_scan_refuted | PropsPanic.v | none |
| C55_decoder_refuted | PropsPanic.v | none |
| C56_log_is_faithful | PropsBolt.v | none |
| C56_only_what_was_asked | PropsBolt.v | none |
| C57_stopped_partial | PropsLeak.v | none |
| C57_partial | PropsPool.v | none |
| C57_refuted | PropsPool.v | none |
| C57_refuted_first_error | PropsPool.v | none |
| C58_over_bytes | PropsWire.v | none |
| C58_own_answers | PropsWire.v | none |
| C59_only_what_was_asked | PropsWire.v | none |
| C60_exact_partial | PropsOpen.v | none |
| C60_opens_partial | PropsWire.v | none |
| C60_session_partial | PropsWire.v | none |
| C60_refuted | PropsWire.v | none |
| C61_read_faults | PropsFault.v | none |
| C61_nothing_made_up | PropsFault.v | none |
| C61_connection | PropsFault.v | none |
| C62_refuted | PropsFault.v | none |
| C62_refuted_commit | PropsFault.v | none |
| C62_before_partial | PropsFault.v | none |
| C62_marked_partial | PropsFault.v | none |
| C63_error_text | PropsMisc.v | none |
| C64_shape_partial | PropsReplay.v | none |
| C64_direction_partial | PropsReplay.v | none |
| C64_refuted | PropsReplay.v | none |
| C65_refuted | PropsReplay.v | none |
| C65_recorded_partial | PropsReplay.v | none |
| C65_clean_partial | PropsReplay.v | none |
| C66_retry_is_safe | PropsSql.v | none |
| C66_bytes_honest | PropsSql.v | none |
| C66_attempts | PropsSql.v | none |
| C67_refuted | PropsSql.v | none |
| C67_never_refuted | PropsSql.v | none |
| C67_wrapped_partial | PropsSql.v | none |
| C68_recovers_by_reset | PropsRecover.v | none |
| C68_own_answers | PropsRecover.v | none |
| C69_refuted | PropsShare.v | none |
| C69_partial | PropsShare.v | none |
| C70_refuted_accepted | PropsTime.v | none |
| C70_refuted | PropsTime.v | none |
| C70_refuted_tls | PropsTime.v | none |
| C70_wait_partial | PropsTime.v | none |
| C70_punctual_partial | PropsTime.v | none |
| C70_late_partial | PropsTime.v | none |
| C71_reported_partial | PropsDecode.v | none |
| C71_eof_reported_partial | PropsDecode.v | none |
| C71_value_partial | PropsDecode.v | none |
| C71_beside_error_partial | PropsDecode.v | none |
| C71_refuted | PropsDecode.v | none |
| C72_system | PropsSystem.v | none |
| C72_returns | PropsSystem.v | none |
| C72_amid | PropsSystem.v | none |
| C72_over_bytes | PropsSystemWire.v | none |
| C72_over_bytes_returns | PropsSystemWire.v | none |
| C73_partial | PropsLeak.v | none |
| C73_refuted | PropsLeak.v | none |
| C74_joint | PropsLate.v | none |
| C74_delivered | PropsLate.v | none |
| C74_handshake | PropsLate.v | none |
| C75_decoded_partial | PropsAlloc.v | none |
| C75_any_partial | PropsAlloc.v | none |
| C75_refuted | PropsAlloc.v | none |
| C76_partial | PropsAlloc.v | none |
| C76_refuted | PropsAlloc.v | none |
| C77_dump | PropsLog.v | none |
| C77_partial | PropsLog.v | none |
| C77_lines_partial | PropsLog.v | none |
| C77_refuted | PropsLog.v | none |
| C78_partial | PropsLog.v | none |
| C78_only_init_partial | PropsLog.v | none |
| C78_refuted | PropsLog.v | none |
| C79_first | PropsReopen.v | none |
| C79_others_partial | PropsReopen.v | none |
| C79_partial | PropsReopen.v | none |
| C79_refuted | PropsReopen.v | none |
| C79_broken_partial | PropsReopen.v | none |
| C80_partial | PropsPlaces.v | none |
| C80_progress_partial | PropsPlaces.v | none |
| C80_served_partial | PropsPlaces.v | none |
| C80_closed_partial | PropsPlaces.v | none |
| C80_refuted_close | PropsPlaces.v | none |
| C80_refuted | PropsPlaces.v | none |
| C81_partial | PropsDbSql.v | none |
| C81_refuted | PropsDbSql.v | none |
| C81_refuted_tx | PropsDbSql.v | none |
| C82_stays_open | PropsStay.v | none |
| C82_call | PropsStay.v | none |
| C83_pool_serves | PropsPoolSys.v | none |
| C83_returns | PropsPoolSys.v | none |
| C84_partial | PropsAlias.v | none |
| C84_overwritten | PropsAlias.v | none |
| C84_metadata_refuted | PropsAlias.v | none |
| C84_refuted | PropsAlias.v | none |
| C85_round_trip_iff | PropsExact.v | none |
| C85_short_strings_iff | PropsExact.v | none |
| C85_or_crash | PropsExact.v | none |
| C86_once | PropsShut.v | none |
| C86_close_nil | PropsShut.v | none |
| C86_open | PropsShut.v | none |
| C86_leak | PropsShut.v | none |
| C87_partial | PropsShut.v | none |
| C87_refuted | PropsShut.v | none |
| C88_partial_kinds | PropsRace.v | none |
| C88_partial_open | PropsRace.v | none |
| C88_refuted | PropsRace.v | none |
| C89_answers_partial | PropsHandles.v | none |
| C89_nil_partial | PropsHandles.v | none |
| C89_refuted | PropsHandles.v | none |
| C89_refuted_open | PropsHandles.v | none |
| C89_refuted_clean_up | PropsHandles.v | none |
| C90_tape_is_faithful | PropsTalk.v | none |
| C90_recovery | PropsTalk.v | none |
| C91_programs_partial | PropsPrograms.v | none |
| C91_unique | PropsPrograms.v | none |
| C91_over_bytes_partial | PropsPrograms.v | none |
| C91_slow_comments_partial | PropsPrograms.v | none |
| C91_quick_comments_partial | PropsPrograms.v | none |
| C91_refuted | PropsPrograms.v | none |
| C91_refuted_always | PropsPrograms.v | none |
| C92_written_partial | PropsConnString.v | none |
| C92_configured_partial | PropsConnString.v | none |
| C92_verbatim | PropsConnString.v | none |
| C92_refuted | PropsConnString.v | none |
| C92_refuted_settings | PropsConnString.v | none |
| C92_refuted_tls | PropsConnString.v | none |
| C92_sent | PropsConnString.v | none |
| C92_host | PropsConnString.v | none |
| C92_settings | PropsConnString.v | none |
| C92_unreadable | PropsConnString.v | none |
| C93_made | PropsPoolMake.v | none |
| C93_serves_partial | PropsPoolMake.v | none |
| C93_refuted | PropsPoolMake.v | none |
| C93_refuted_empty | PropsPoolMake.v | none |
| C94_texts | PropsOpenError.v | none |
| C94_partial | PropsOpenError.v | none |
| C94_read | PropsOpenError.v | none |
| C94_refuted | PropsOpenError.v | none |
| C95_minutes_are_faithful | PropsCredentials.v | none |
| C95_partial | PropsCredentials.v | none |
| C95_once | PropsCredentials.v | none |
| C95_recipients | PropsCredentials.v | none |
| C95_refuted | PropsCredentials.v | none |
| C96_sees | PropsProbe.v | none |
| C96_harmless | PropsProbe.v | none |
| C96_partial | PropsProbe.v | none |
| C96_refuted | PropsProbe.v | none |
| C96_refuted_pool | PropsProbe.v | none |
| C96_refuted_for_ever | PropsProbe.v | none |
