{
 "claims": [
  {
   "property": "C01",
   "status": "proved",
   "theorems": [
    "C01_conformance"
   ],
   "note": "Sent v b -> PS (denote v) b against the independent PackStream grammar of PackSpec.v; uints above MaxInt64 are excluded (C04)."
  },
  {
   "property": "C02",
   "status": "proved",
   "theorems": [
    "C02_minimal"
   ],
   "note": "Compared with every other derivation of the grammar."
  },
  {
   "property": "C03",
   "status": "proved",
   "theorems": [
    "C03_rejects_iff"
   ],
   "note": "If and only if."
  },
  {
   "property": "C04",
   "status": "partial",
   "theorems": [
    "C04_int_kinds_partial",
    "C04_refuted"
   ],
   "note": "REFUTED as stated: C04_refuted shows every uint in 2^63..2^64-1 is accepted and sent as z-2^64. C04_int_kinds_partial proves it for all other kinds and values."
  },
  {
   "property": "C05",
   "status": "proved",
   "theorems": [
    "C05_prefix_free"
   ],
   "note": ""
  },
  {
   "property": "C06",
   "status": "proved",
   "theorems": [
    "C06_round_trip"
   ],
   "note": "Sizes restricted exactly as the statement says."
  },
  {
   "property": "C07",
   "status": "partial",
   "theorems": [
    "C07_refuted_strings",
    "C07_refuted_long_strings",
    "C07_refuted_lists",
    "C07_refuted_maps"
   ],
   "note": "REFUTED as stated: C07_refuted_* give families of accepted strings, lists and maps that do not round trip. The true part is C06."
  },
  {
   "property": "C08",
   "status": "proved",
   "theorems": [
    "C08_accepts_all"
   ],
   "note": ""
  },
  {
   "property": "C09",
   "status": "partial",
   "theorems": [
    "C09_terminates_partial",
    "C09_refuted"
   ],
   "note": "First sentence proved (C09_terminates_partial). The last sentence is REFUTED by C09_refuted (families of inputs that panic)."
  },
  {
   "property": "C10",
   "status": "partial",
   "theorems": [
    "C10_truncation_partial",
    "C10_refuted"
   ],
   "note": "REFUTED as stated by C10_refuted (every string, every cut). C10_truncation_partial: for every value and every cut, exactly what is decoded: an error, or, when the value ends in a string and the cut is inside it, the value with that string shortened."
  },
  {
   "property": "C11",
   "status": "proved",
   "theorems": [
    "C11_types"
   ],
   "note": ""
  },
  {
   "property": "C12",
   "status": "proved",
   "theorems": [
    "C12_map_order",
    "C12_lookup"
   ],
   "note": "Maps are association lists; any two orders, at every level, are related by reorder."
  },
  {
   "property": "C13",
   "status": "proved",
   "theorems": [
    "C13_framing",
    "C13_framing_encode"
   ],
   "note": "If and only if, for every write sequence and chunk size."
  },
  {
   "property": "C14",
   "status": "partial",
   "theorems": [
    "C14_exact_partial",
    "C14_chunk_bound_partial",
    "C14_refuted"
   ],
   "note": "REFUTED as stated for every chunk size 1..65534 by C14_refuted. C14_exact_partial: exactly when it is true, for every value and chunk size; C14_chunk_bound_partial: in particular when chunk size >= 8 and no string is longer than a chunk."
  },
  {
   "property": "C15",
   "status": "partial",
   "theorems": [
    "C15_exact_partial",
    "C15_terminator_partial",
    "C15_refuted_zero",
    "C15_refuted"
   ],
   "note": "REFUTED as stated by C15_refuted (every chunk size 6..65535) and C15_refuted_zero. C15_exact_partial: exactly when it is true, for every value and chunk size; C15_terminator_partial: in particular when chunk size >= 8 and no string is longer than a chunk."
  },
  {
   "property": "C16",
   "status": "proved",
   "theorems": [
    "C16_segmentation",
    "C16_messages_in_order"
   ],
   "note": ""
  },
  {
   "property": "C17",
   "status": "proved",
   "theorems": [
    "C17_write_failure",
    "C17_connection"
   ],
   "note": "Failure oracle: every write either succeeds or fails after any number of bytes."
  },
  {
   "property": "C18",
   "status": "partial",
   "theorems": [
    "C18_rejected_partial",
    "C18_refuted"
   ],
   "note": "C18_rejected_partial: true if and only if fewer bytes than the chunk size precede the offending element. C18_refuted: for every chunk size a rejected value leaves an open message that swallows the next one."
  },
  {
   "property": "C19",
   "status": "proved",
   "theorems": [
    "C19_chunk_size_independent",
    "C19_same_message"
   ],
   "note": ""
  },
  {
   "property": "C20",
   "status": "partial",
   "theorems": [
    "C20_connection_partial",
    "C20_handshake_partial",
    "C20_refuted",
    "C20_offer",
    "C20_exact_partial"
   ],
   "note": "REFUTED as stated by C20_refuted: a first piece of 1-3 bytes is accepted whatever the answer. C20_exact_partial: exactly when the handshake passes, for every write and every stream; C20_handshake_partial: in particular it is right when the answer arrives in one piece or not at all."
  },
  {
   "property": "C21",
   "status": "proved",
   "theorems": [
    "C21_calls",
    "C21_stmt_calls",
    "C21_tx_calls",
    "C21_rows",
    "C21_innermost",
    "C21_every_error"
   ],
   "note": "Wrapping for any depth; the API part against a Bolt server for every call, statement, transaction and row read that the server answers with FAILURE."
  },
  {
   "property": "C22",
   "status": "proved",
   "theorems": [
    "C22_rows_affected",
    "C22_only_counters",
    "C22_panics",
    "C22_last_insert_id",
    "C22_names"
   ],
   "note": ""
  },
  {
   "property": "C23",
   "status": "partial",
   "theorems": [
    "C23_conn_string",
    "C23_timeout_partial",
    "C23_refuted",
    "C23_names"
   ],
   "note": "C23_conn_string proves acceptance and all fields as an if and only if. REFUTED for timeouts of 9223372037 s or more (C23_refuted: the product with a second wraps); C23_timeout_partial for the others."
  },
  {
   "property": "C24",
   "status": "proved",
   "theorems": [
    "C24_verification",
    "C24_tls_iff",
    "C24_cert_needs_key",
    "C24_credentials",
    "C24_names",
    "C24_init"
   ],
   "note": "net/url and crypto/tls are environment."
  },
  {
   "property": "C25",
   "status": "proved",
   "theorems": [
    "C25_one_statement",
    "C25_refused",
    "C25_one_row_set"
   ],
   "note": "Any network, any history."
  },
  {
   "property": "C26",
   "status": "proved",
   "theorems": [
    "C26_closed_refuses",
    "C26_closes_statements",
    "C26_close_again"
   ],
   "note": "Any network, any history."
  },
  {
   "property": "C27",
   "status": "proved",
   "theorems": [
    "C27_statement",
    "C27_rows",
    "C27_transaction",
    "C27_close_again",
    "C27_permanent",
    "C27_closes"
   ],
   "note": "Any network, any history."
  },
  {
   "property": "C28",
   "status": "proved",
   "theorems": [
    "C28_own_answers"
   ],
   "note": "Refinement of the abstract machine of SessionSpec.v, which answers every request in isolation; where the documented rules promise nothing (see there: reading past the end, C32; a transaction still open at Close, C38; records from BEGIN/COMMIT; rows of Conn.QueryNeo left open over Commit, C37) the machine promises nothing."
  },
  {
   "property": "C29",
   "status": "proved",
   "theorems": [
    "C29_connection_usable",
    "C29_statement_usable",
    "C29_transaction",
    "C29_query_pipeline_needs_close"
   ],
   "note": "Proved for every call and every failure point. Beyond the statement: Conn.QueryPipeline, whose failure is acknowledged and read but which leaves a statement on the connection, so further work is refused until it is closed (C29_query_pipeline_needs_close)."
  },
  {
   "property": "C30",
   "status": "partial",
   "theorems": [
    "C30_rows_refuted",
    "C30_statement_refuted",
    "C30_pipeline_refuted",
    "C30_partial"
   ],
   "note": "REFUTED as stated by C30_rows_refuted, C30_statement_refuted, C30_pipeline_refuted (every failure point). C30_partial: a connection whose rows came from QueryNeo can be closed."
  },
  {
   "property": "C31",
   "status": "proved",
   "theorems": [
    "C31_rows_in_order",
    "C31_all",
    "C31_sql",
    "C31_query_all"
   ],
   "note": ""
  },
  {
   "property": "C32",
   "status": "partial",
   "theorems": [
    "C32_refuted",
    "C32_partial"
   ],
   "note": "REFUTED as stated by C32_refuted (every result, every kind of read). C32_partial: the end is reported once and closing afterwards waits for nothing."
  },
  {
   "property": "C33",
   "status": "proved",
   "theorems": [
    "C33_exec_pipeline",
    "C33_query_pipeline"
   ],
   "note": ""
  },
  {
   "property": "C34",
   "status": "partial",
   "theorems": [
    "C34_refuted",
    "C34_partial"
   ],
   "note": "REFUTED as stated by C34_refuted (every pipeline: four nils). C34_partial: four nils are returned at the end only."
  },
  {
   "property": "C35",
   "status": "proved",
   "theorems": [
    "C35_close_early",
    "C35_pipeline_close_early"
   ],
   "note": "Streams that end with a summary; when the discarded rest holds a failure the close reports it (C28) and C30 applies."
  },
  {
   "property": "C36",
   "status": "partial",
   "theorems": [
    "C36_refuted_swapped_answer",
    "C36_refuted_pipeline",
    "C36_connection_partial",
    "C36_statement_partial"
   ],
   "note": "REFUTED as stated by C36_refuted_swapped_answer (the next call gets the answer of the first query of the pipeline) and C36_refuted_pipeline. C36_connection_partial and C36_statement_partial: true for all other calls, including pipelines whose first parameter map is the bad one."
  },
  {
   "property": "C37",
   "status": "partial",
   "theorems": [
    "C37_refuted",
    "C37_quiet_partial",
    "C37_sends_partial",
    "C37_words"
   ],
   "note": "REFUTED as stated by C37_refuted. C37_quiet_partial: true when no rows of Conn.QueryNeo are open. C37_sends_partial: on any network, exactly one COMMIT or ROLLBACK and two SUCCESS messages read."
  },
  {
   "property": "C38",
   "status": "partial",
   "theorems": [
    "C38_refuted_second_begin",
    "C38_server_partial",
    "C38_refuted_close",
    "C38_refuted_never_rolled_back"
   ],
   "note": "REFUTED as stated by C38_refuted_second_begin, C38_refuted_close and, for every network and history, C38_refuted_never_rolled_back. C38_server_partial: Begin hands out a transaction exactly when the server accepts BEGIN, so there is at most one if the server sees to it; nothing is true of the rollback."
  },
  {
   "property": "C39",
   "status": "partial",
   "theorems": [
    "C39_network_errors_partial",
    "C39_refuted_eof",
    "C39_refuted_query_all"
   ],
   "note": "REFUTED as stated by C39_refuted_eof (stream closed by the server) and C39_refuted_query_all (an error lost by QueryNeoAll). C39_network_errors_partial: every other network error marks the connection and is returned, as ErrBadConn or under the FAILURE message that made the driver close the session."
  },
  {
   "property": "C40",
   "status": "partial",
   "theorems": [
    "C40_finite_server_partial",
    "C40_refuted",
    "C40_hears_partial"
   ],
   "note": "REFUTED as stated by C40_refuted (server that answers FAILURE for ever). C40_finite_server_partial: true for every server that sends finitely many messages, with an explicit bound. C40_hears_partial: on every network, a call that goes on for ever receives messages for ever."
  },
  {
   "property": "C41",
   "status": "partial",
   "theorems": [
    "C41_partial_bound",
    "C41_partial_no_blocking",
    "C41_initialize",
    "C41_calls",
    "C41_refuted_initialize_twice",
    "C41_refuted",
    "C41_refuted_double_close"
   ],
   "note": "REFUTED as stated: C41_refuted_initialize_twice (initialize itself puts the connection back twice when a refused INIT is not acknowledged properly), C41_refuted (then, for every pool size, nothing returns any more), C41_refuted_double_close. C41_partial_bound, C41_partial_no_blocking: true for every interleaving when each connection is put back once. C41_initialize, C41_calls: the pool machine covers what the session model does."
  },
  {
   "property": "C42",
   "status": "partial",
   "theorems": [
    "C42_partial",
    "C42_partial_once",
    "C42_refuted"
   ],
   "note": "REFUTED for callers that close twice by C42_refuted. C42_partial, C42_partial_once: true for every interleaving of careful callers."
  },
  {
   "property": "C43",
   "status": "partial",
   "theorems": [
    "C43_refuted_any_network",
    "C43_partial",
    "C43_refuted"
   ],
   "note": "REFUTED as stated by C43_refuted_any_network and C43_refuted (queries on the closed handle run). C43_partial: true of connections without a pool."
  },
  {
   "property": "C44",
   "status": "partial",
   "theorems": [
    "C44_partial",
    "C44_refuted_initialize",
    "C44_refuted"
   ],
   "note": "REFUTED as stated by C44_refuted_initialize and C44_refuted. C44_partial: true when failures of initialize after dialling are network errors (or there are none)."
  },
  {
   "property": "C45",
   "status": "partial",
   "theorems": [
    "C45_partial_closed",
    "C45_partial_refuses",
    "C45_partial_never_held_up",
    "C45_partial_returns",
    "C45_refuted",
    "C45_refuted_while_waiting"
   ],
   "note": "C45_partial_closed and C45_partial_refuses: the first half is true for every run. The second half is REFUTED by C45_refuted (every pool size) and C45_refuted_while_waiting; C45_partial_never_held_up, C45_partial_returns: Close returns once it has the lock."
  },
  {
   "property": "C46",
   "status": "partial",
   "theorems": [
    "C46_partial",
    "C46_refuted_rows",
    "C46_refuted_transaction",
    "C46_next_user_partial"
   ],
   "note": "REFUTED as stated by C46_refuted_rows and C46_refuted_transaction. C46_partial: true for every history against a Bolt server after which Close is promised to return nil and no rows of QueryNeo and no transaction are open. C46_next_user_partial: then whatever the next user does is answered as on a new connection."
  },
  {
   "property": "C47",
   "status": "partial",
   "theorems": [
    "C47_partial",
    "C47_partial_replaced",
    "C47_refuted_end_of_stream",
    "C47_refuted"
   ],
   "note": "REFUTED for the end of the stream by C47_refuted_end_of_stream and C47_refuted. C47_partial, C47_partial_replaced: true for every interleaving of careful callers otherwise."
  },
  {
   "property": "C48",
   "status": "proved",
   "theorems": [
    "C48_args",
    "C48_not_bytes",
    "C48_panics"
   ],
   "note": "Sizes as in C06. 'Sends nothing' is by construction: the conversion precedes every send (see Session.v). C48_panics documents the panic on a marshalled non-map."
  },
  {
   "property": "C49",
   "status": "partial",
   "theorems": [
    "C49_exact_partial",
    "C49_next_partial",
    "C49_refuted",
    "C49_panics"
   ],
   "note": "REFUTED as stated by C49_refuted (lists of 128-255 elements). C49_exact_partial: exactly which rows it is true for; C49_next_partial: in particular rows whose collections are Transmissible, with strings of at most 65535 bytes."
  },
  {
   "property": "C50",
   "status": "proved",
   "theorems": [
    "C50_columns",
    "C50_names"
   ],
   "note": ""
  },
  {
   "property": "C51",
   "status": "partial",
   "theorems": [
    "C51_replay_partial",
    "C51_refuted_short_read",
    "C51_refuted_one_byte",
    "C51_program_partial",
    "C51_exactly"
   ],
   "note": "REFUTED as stated by C51_refuted_short_read and C51_refuted_one_byte. C51_replay_partial: true when every transfer is complete, at least two bytes, without error. C51_exactly: those are the only sessions that replay, as long as no call asks for nothing. C51_program_partial: a client that decides from what it reads what to do next gets the same answers and makes the same calls on the replay."
  },
  {
   "property": "C52",
   "status": "proved",
   "theorems": [
    "C52_levels",
    "C52_monotone",
    "C52_unknown",
    "C52_names"
   ],
   "note": ""
  },
  {
   "property": "C53",
   "status": "proved",
   "theorems": [
    "C53_float32"
   ],
   "note": ""
  },
  {
   "property": "C54",
   "status": "partial",
   "theorems": [
    "C54_end_partial",
    "C54_refuted",
    "C54_refuted_bytes"
   ],
   "note": "REFUTED as stated by C54_refuted (any records followed by a message cut short) and in bytes by C54_refuted_bytes. C54_end_partial: otherwise the end is the SUCCESS message last read."
  },
  {
   "property": "C55",
   "status": "partial",
   "theorems": [
    "C55_partial",
    "C55_others_partial",
    "C55_lost_refuted",
    "C55_closed_refuted",
    "C55_refused_refuted",
    "C55_all_refuted",
    "C55_scan_refuted",
    "C55_decoder_refuted"
   ],
   "note": "REFUTED as stated by C55_closed_refuted and C55_lost_refuted (rows read after their statement or connection was closed), C55_refused_refuted and C55_all_refuted (a query refused three times), C55_scan_refuted (Next with too few cells), C55_decoder_refuted. C55_partial: on every network whose messages the decoder does not panic on, the first panic of every history is one of these; C55_others_partial: all other calls never panic."
  },
  {
   "property": "C56",
   "status": "proved",
   "theorems": [
    "C56_log_is_faithful",
    "C56_only_what_was_asked"
   ],
   "note": "Any network, any history; the log is faithful to the network without it."
  },
  {
   "property": "C57",
   "status": "partial",
   "theorems": [
    "C57_stopped_partial",
    "C57_partial",
    "C57_refuted",
    "C57_refuted_first_error"
   ],
   "note": "REFUTED as stated by C57_refuted (INIT failed) and C57_refuted_first_error. C57_partial: true, for every run, of every network connection on which INIT succeeded; C57_stopped_partial: a connection at which the pool's Close stopped is closed by its user's Close."
  },
  {
   "property": "C58",
   "status": "proved",
   "theorems": [
    "C58_over_bytes",
    "C58_own_answers"
   ],
   "note": "Chunk sizes below 8 or above 65535, over-long strings and big uints are excluded in the statement: C04, C13-C15, C18 show what happens then. The server answers a request as soon as it has it; waiting longer than the read timeout for an answer ends the stream."
  },
  {
   "property": "C59",
   "status": "proved",
   "theorems": [
    "C59_only_what_was_asked"
   ],
   "note": ""
  },
  {
   "property": "C60",
   "status": "partial",
   "theorems": [
    "C60_exact_partial",
    "C60_opens_partial",
    "C60_session_partial",
    "C60_refuted"
   ],
   "note": "REFUTED as stated by C60_refuted (first byte of the server's choice alone, for every user, serialisation and server behaviour). C60_exact_partial: opening succeeds exactly when the four bytes come with the first read, and returns an error otherwise; C60_opens_partial: true when the four bytes arrive in one segment; the INIT answer may be cut anywhere. C60_session_partial: then every history of calls gets its own answers."
  },
  {
   "property": "C61",
   "status": "proved",
   "theorems": [
    "C61_read_faults",
    "C61_nothing_made_up",
    "C61_connection"
   ],
   "note": ""
  },
  {
   "property": "C62",
   "status": "partial",
   "theorems": [
    "C62_refuted",
    "C62_refuted_commit",
    "C62_before_partial",
    "C62_marked_partial"
   ],
   "note": "REFUTED as stated by C62_refuted and C62_refuted_commit (a read that times out once, any queries). What holds: everything returned before the timeout is right (C62_before_partial) and the connection stays marked (C62_marked_partial), so the pool replaces it (C47)."
  },
  {
   "property": "C63",
   "status": "proved",
   "theorems": [
    "C63_error_text"
   ],
   "note": "Texts are left open: a line is identified by the place in the source that made it."
  },
  {
   "property": "C64",
   "status": "partial",
   "theorems": [
    "C64_shape_partial",
    "C64_direction_partial",
    "C64_refuted"
   ],
   "note": "REFUTED as stated by C64_refuted (the bytes written are not compared, any session). What holds: amounts, directions and order of all transfers and the bytes read are exactly the recorded ones (C64_shape_partial); a call in the wrong direction or after the end fails and takes nothing (C64_direction_partial)."
  },
  {
   "property": "C65",
   "status": "partial",
   "theorems": [
    "C65_refuted",
    "C65_recorded_partial",
    "C65_clean_partial"
   ],
   "note": "REFUTED as stated by C65_refuted: no recording of a session with a failed call can be loaded (its JSON form cannot be read back). What holds: the fault is recorded at its place for good (C65_recorded_partial), recordings without faults load (C65_clean_partial)."
  },
  {
   "property": "C66",
   "status": "proved",
   "theorems": [
    "C66_retry_is_safe",
    "C66_bytes_honest",
    "C66_attempts"
   ],
   "note": "Any network that reports network errors as such; connections over bytes are of that kind (C66_bytes_honest). C66_attempts is the loop of database/sql."
  },
  {
   "property": "C67",
   "status": "partial",
   "theorems": [
    "C67_refuted",
    "C67_never_refuted",
    "C67_wrapped_partial"
   ],
   "note": "REFUTED as stated, for every network: a network error during a call without a FAILURE is never returned as driver.ErrBadConn itself (C67_refuted). With a Bolt server no history of calls under any faults returns it, except Conn.Close (C67_never_refuted). The error is wrapped, its innermost error is driver.ErrBadConn and the connection is marked (C67_wrapped_partial, see C39)."
  },
  {
   "property": "C68",
   "status": "proved",
   "theorems": [
    "C68_recovers_by_reset",
    "C68_own_answers"
   ],
   "note": "Simulation between the two servers for every call; C68_own_answers carries C28 over to such servers."
  },
  {
   "property": "C69",
   "status": "partial",
   "theorems": [
    "C69_refuted",
    "C69_partial"
   ],
   "note": "REFUTED as stated by C69_refuted (any network, any later history: everything is sent with the chunk size of the earlier user). C69_partial: without calls of SetChunkSize it is always 65535."
  },
  {
   "property": "C70",
   "status": "partial",
   "theorems": [
    "C70_refuted_accepted",
    "C70_refuted",
    "C70_refuted_tls",
    "C70_wait_partial",
    "C70_punctual_partial",
    "C70_late_partial"
   ],
   "note": "REFUTED as stated by C70_refuted_accepted with C70_refuted (timeout of zero or less: opening fails before a byte is sent) and C70_refuted_tls. C70_wait_partial, C70_punctual_partial, C70_late_partial: with a positive timeout the k-th read returns within k timeouts, segments in time are read as without a timeout, a late one makes the call fail one timeout after the last segment in time."
  },
  {
   "property": "C71",
   "status": "partial",
   "theorems": [
    "C71_reported_partial",
    "C71_eof_reported_partial",
    "C71_value_partial",
    "C71_beside_error_partial",
    "C71_refuted"
   ],
   "note": "REFUTED as stated by C71_refuted (NextPipeline takes a SUCCESS cut short for an answer without metadata) and C54_refuted. C71_reported_partial, C71_eof_reported_partial: everything else that goes wrong makes the call fail (QueryNeoAll excepted); C71_value_partial, C71_beside_error_partial: the value beside an error makes a difference only when it is SUCCESS beside a bare io.EOF."
  },
  {
   "property": "C72",
   "status": "proved",
   "theorems": [
    "C72_system",
    "C72_returns",
    "C72_amid",
    "C72_over_bytes",
    "C72_over_bytes_returns"
   ],
   "note": "C72_system, C72_returns: interleaving at the level of calls, with misbehaving clients; C72_amid: the database changes before every query, also inside a call. C72_over_bytes, C72_over_bytes_returns: the same with the bytes in between, for every client whose own requests fit the format, whatever bytes the others send."
  },
  {
   "property": "C73",
   "status": "partial",
   "theorems": [
    "C73_partial",
    "C73_refuted"
   ],
   "note": "REFUTED as stated by C73_refuted (any number of network connections left open by a pool of one). C73_partial: true when nothing fails on the network."
  },
  {
   "property": "C74",
   "status": "proved",
   "theorems": [
    "C74_joint",
    "C74_delivered",
    "C74_handshake"
   ],
   "note": "C74_joint reduces every such reader to the readers of the other theorems; C74_delivered, C74_handshake."
  },
  {
   "property": "C75",
   "status": "partial",
   "theorems": [
    "C75_decoded_partial",
    "C75_any_partial",
    "C75_refuted"
   ],
   "note": "REFUTED as stated by C75_refuted (n (2^31-1) slots for 5 n bytes). C75_decoded_partial: true for messages that are decoded; C75_any_partial: the bound for all messages. The decoder with costs is proved to be the decoder of the other theorems (Alloc.erased)."
  },
  {
   "property": "C76",
   "status": "partial",
   "theorems": [
    "C76_partial",
    "C76_refuted"
   ],
   "note": "REFUTED as stated by C76_refuted (depth n+1 for a well-formed message of n+1 bytes). C76_partial: never more than the length and one."
  },
  {
   "property": "C77",
   "status": "partial",
   "theorems": [
    "C77_dump",
    "C77_partial",
    "C77_lines_partial",
    "C77_refuted"
   ],
   "note": "REFUTED as stated by C77_refuted (every short Read, every short Write). C77_dump: dumps are unambiguous; C77_partial, C77_lines_partial: exactly what the lines show."
  },
  {
   "property": "C78",
   "status": "partial",
   "theorems": [
    "C78_partial",
    "C78_only_init_partial",
    "C78_refuted"
   ],
   "note": "REFUTED at trace level by C78_refuted (different passwords never give the same log). C78_partial: true at every lower level."
  },
  {
   "property": "C79",
   "status": "partial",
   "theorems": [
    "C79_first",
    "C79_others_partial",
    "C79_partial",
    "C79_refuted",
    "C79_broken_partial"
   ],
   "note": "REFUTED as stated by C79_refuted (every connection string, every timeout). C79_others_partial: true for the other settings; C79_partial: and for the timeout as long as nobody sets it, or since the last opening if the string gives one; C79_first: parsing a new connection's string is parse_url of C23."
  },
  {
   "property": "C80",
   "status": "partial",
   "theorems": [
    "C80_partial",
    "C80_progress_partial",
    "C80_served_partial",
    "C80_closed_partial",
    "C80_refuted_close",
    "C80_refuted"
   ],
   "note": "REFUTED as stated by C80_refuted_close (any network that is down, any number of calls of Close) and C80_refuted (a pool of any size). C80_partial: places add up when every connection is put back; C80_progress_partial: no deadlock; C80_served_partial: one Close is enough for a waiting OpenPool; C80_closed_partial: a Close that returns nil has put the connection back."
  },
  {
   "property": "C81",
   "status": "partial",
   "theorems": [
    "C81_partial",
    "C81_refuted",
    "C81_refuted_tx"
   ],
   "note": "REFUTED as stated by C81_refuted and C81_refuted_tx (every history after which a statement is open, every network). C81_partial: every program that closes a prepared statement before it runs anything else gets the answers that are computed from the database alone."
  },
  {
   "property": "C82",
   "status": "proved",
   "theorems": [
    "C82_stays_open",
    "C82_call"
   ],
   "note": "C82_stays_open: all histories, counted from outside on the network; C82_call: call by call. C82_server_matters shows that a server that answers ACK_FAILURE wrongly makes a query close the connection."
  },
  {
   "property": "C83",
   "status": "proved",
   "theorems": [
    "C83_pool_serves",
    "C83_returns"
   ],
   "note": "C83_pool_serves: everything the program sees, in every run; C83_returns: a promised call returns when no more faults come. Excluded, as the statement says: pool Close, a refused INIT, a peer that closes the stream; nothing is promised once somebody has closed a connection in a state the machine promises nothing for (C83_unread shows why)."
  },
  {
   "property": "C84",
   "status": "partial",
   "theorems": [
    "C84_partial",
    "C84_overwritten",
    "C84_metadata_refuted",
    "C84_refuted"
   ],
   "note": "REFUTED as stated by C84_refuted (the pipeline that is in the caller's slice at the time of ExecPipeline is run, for any two pipelines of the same length) and C84_metadata_refuted. C84_partial: true for a program that does not run a pipeline again after writing into its slice nor asks again for metadata it has written into; in particular rows being read are not affected. C84_overwritten: the exact effect."
  },
  {
   "property": "C85",
   "status": "proved",
   "theorems": [
    "C85_round_trip_iff",
    "C85_short_strings_iff",
    "C85_or_crash"
   ],
   "note": "C85_round_trip_iff: the exact condition; C85_short_strings_iff: without the chunks. C85_or_crash: a value that does not come back crashes the receiver; for maps of a size that turns negative this depends on the version of Go (mk), see C07_refuted_maps for the other case."
  },
  {
   "property": "C86",
   "status": "proved",
   "theorems": [
    "C86_once",
    "C86_close_nil",
    "C86_open",
    "C86_leak"
   ],
   "note": "C86_once, C86_close_nil, C86_open: all histories, any network, counted from outside. C86_leak shows that a Close that returns an error need not have closed the socket, however often it is repeated."
  },
  {
   "property": "C87",
   "status": "partial",
   "theorems": [
    "C87_partial",
    "C87_refuted"
   ],
   "note": "REFUTED as stated by C87_refuted (Begin, Close, Commit). C87_partial: exactly the calls that use a closed socket, in every reachable state."
  },
  {
   "property": "C88",
   "status": "partial",
   "theorems": [
    "C88_partial_kinds",
    "C88_partial_open",
    "C88_refuted"
   ],
   "note": "REFUTED as stated by C88_refuted (a connection is handed back, then another goroutine closes the pool: the pool's Close writes the poolDriver field of the boltConn that the connection's Close has read and written, and nothing orders the two). C88_partial_kinds: that, and two calls on one connection, are the only possible races, with any synchronisation the callers add. C88_partial_open: none at all while the pool is not closed and every goroutine uses its own connections."
  },
  {
   "property": "C89",
   "status": "partial",
   "theorems": [
    "C89_answers_partial",
    "C89_nil_partial",
    "C89_refuted",
    "C89_refuted_open",
    "C89_refuted_clean_up"
   ],
   "note": "REFUTED as stated by C89_refuted, C89_refuted_open (whatever the network does) and C89_refuted_clean_up (the panic). C89_answers_partial: an object or result is returned exactly when no error is; C89_nil_partial: PreparePipeline, Begin and the QueryPipelines return nil exactly when they fail."
  },
  {
   "property": "C90",
   "status": "proved",
   "theorems": [
    "C90_tape_is_faithful",
    "C90_recovery"
   ],
   "note": "C90_recovery, for every run in which no call runs out of fuel (a call that never returns, C40; its unfinished conversation is not covered). C90_tape_is_faithful: the recording network answers as the one it records."
  },
  {
   "property": "C91",
   "status": "partial",
   "theorems": [
    "C91_programs_partial",
    "C91_unique",
    "C91_over_bytes_partial",
    "C91_slow_comments_partial",
    "C91_quick_comments_partial",
    "C91_refuted",
    "C91_refuted_always"
   ],
   "note": "REFUTED for the README's slow program by C91_refuted, C91_refuted_always (it never returns where the example does). C91_programs_partial: all three programs, for every database, against functions of the database alone; C91_over_bytes_partial: the same from opening on over the byte stream; C91_slow_comments_partial, C91_quick_comments_partial: the comments; C91_unique: nothing else can happen. Close run by defer while the program panics is not followed."
  },
  {
   "property": "C92",
   "status": "partial",
   "theorems": [
    "C92_written_partial",
    "C92_configured_partial",
    "C92_verbatim",
    "C92_refuted",
    "C92_refuted_settings",
    "C92_refuted_tls",
    "C92_sent",
    "C92_host",
    "C92_settings",
    "C92_unreadable"
   ],
   "note": "REFUTED as stated: C92_refuted (credentials lost at / ? #), C92_refuted_settings, C92_refuted_tls (malformed settings dropped, TLS with them). C92_written_partial: every string of the grammar is read as what it was written from; C92_configured_partial: through to the configuration and the host dialled; C92_verbatim: exactly which credentials need no escapes. Conversely, for every string: C92_sent, C92_host, C92_settings: credentials, host and settings that are used are written in the string, at their places; C92_unreadable: nothing is done with a string that cannot be read. net/url is modelled from its documentation (Go 1.17 and later); host names with escapes or non-ASCII bytes, IPv6 zones, paths with escapes and fragments are in the model but not in the grammar of C92_written_partial."
  },
  {
   "property": "C93",
   "status": "partial",
   "theorems": [
    "C93_made",
    "C93_serves_partial",
    "C93_refuted",
    "C93_refuted_empty"
   ],
   "note": "REFUTED below size 1: C93_refuted (panic exactly for negative sizes), C93_refuted_empty (size 0: nothing returns any more). C93_made: for every other size the constructor gives the pool machine its first state; C93_serves_partial: it hands out up to its size. That later calls return when connections are given back is C80; sizes for which memory does not suffice are not modelled."
  },
  {
   "property": "C94",
   "status": "partial",
   "theorems": [
    "C94_texts",
    "C94_partial",
    "C94_read",
    "C94_refuted"
   ],
   "note": "REFUTED as stated by C94_refuted (any password with a character that is not allowed unescaped: its text is in the error). C94_partial: for every string of the grammar of C92 the error is the same for any other password; C94_read: the same for every string that net/url reads, whatever its scheme; C94_texts: the model has a text exactly where the configuration is refused. The texts are modelled byte by byte except the stack trace and the reason given by net/url, which are arbitrary; strings without a scheme have an arbitrary text too. Errors after the dial (network, server, TLS files) are not covered."
  },
  {
   "property": "C95",
   "status": "partial",
   "theorems": [
    "C95_minutes_are_faithful",
    "C95_partial",
    "C95_once",
    "C95_recipients",
    "C95_refuted"
   ],
   "note": "REFUTED in its last sentence by C95_refuted: from the text of the connection string to the message, for every answer that does not begin with four zeros. C95_partial: what opening sends, on every network (also for opening that never ends, with any fuel); C95_once: INIT and the handshake once in the life of the connection, whatever is called; C95_recipients: exactly which servers are sent INIT, over bytes, when the twenty bytes of the handshake were written; C95_minutes_are_faithful: writing down what happens changes nothing. A Write that takes fewer than twenty bytes without an error, which io.Writer forbids, is left to C20."
  },
  {
   "property": "C96",
   "status": "partial",
   "theorems": [
    "C96_sees",
    "C96_harmless",
    "C96_partial",
    "C96_refuted",
    "C96_refuted_pool",
    "C96_refuted_for_ever"
   ],
   "note": "REFUTED as stated: C96_refuted, C96_refuted_pool (any socket not closed by this process passes the check and is handed out without dialling, in every state of the pool machine), C96_refuted_for_ever (any number of users of one place, each with any number of calls of ExecNeo, QueryNeo and Begin and then Close, when the server has shut down its side and accepts what is written). C96_sees: exactly what the check sees; C96_harmless: it does not change what is read afterwards; C96_partial: connections closed by this process are not handed out. The read of no bytes is modelled from package net (internal/poll.FD.Read returns at once; tls.Conn.Read too after its handshake)."
  }
 ]
}