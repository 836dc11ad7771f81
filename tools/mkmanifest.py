#!/usr/bin/env python3
"""Writes /verif/MANIFEST.json: the theorems CNN_* of rocq/theories/Props*.v, with the status and notes below."""
import json, os, re, glob
here = os.path.dirname(os.path.abspath(__file__)); root = os.path.join(here, "..")
PENDING = "not yet proved; planned in DESIGN.md"
# id -> (status, note)
N = {
"C01": ("proved", "Sent v b -> PS (denote v) b against the independent PackStream grammar of PackSpec.v; uints above MaxInt64 are excluded (C04)."),
"C02": ("proved", "Compared with every other derivation of the grammar."),
"C03": ("proved", "If and only if."),
"C04": ("partial", "REFUTED as stated: C04_refuted shows every uint in 2^63..2^64-1 is accepted and sent as z-2^64. C04_int_kinds_partial proves it for all other kinds and values."),
"C05": ("proved", ""),
"C06": ("proved", "Sizes restricted exactly as the statement says."),
"C07": ("partial", "REFUTED as stated: C07_refuted_* give families of accepted strings, lists and maps that do not round trip. The true part is C06."),
"C08": ("proved", ""),
"C09": ("partial", "First sentence proved (C09_terminates_partial). The last sentence is REFUTED by C09_refuted (families of inputs that panic)."),
"C10": ("partial", "REFUTED as stated by C10_refuted (every string, every cut). C10_truncation_partial: for every value and every cut, exactly what is decoded: an error, or, when the value ends in a string and the cut is inside it, the value with that string shortened."),
"C11": ("proved", ""),
"C12": ("proved", "Maps are association lists; any two orders, at every level, are related by reorder."),
"C13": ("proved", "If and only if, for every write sequence and chunk size."),
"C14": ("partial", "REFUTED as stated for every chunk size 1..65534 by C14_refuted. C14_exact_partial: exactly when it is true, for every value and chunk size; C14_chunk_bound_partial: in particular when chunk size >= 8 and no string is longer than a chunk."),
"C15": ("partial", "REFUTED as stated by C15_refuted (every chunk size 6..65535) and C15_refuted_zero. C15_exact_partial: exactly when it is true, for every value and chunk size; C15_terminator_partial: in particular when chunk size >= 8 and no string is longer than a chunk."),
"C16": ("proved", ""),
"C17": ("proved", "Failure oracle: every write either succeeds or fails after any number of bytes."),
"C18": ("partial", "C18_rejected_partial: true if and only if fewer bytes than the chunk size precede the offending element. C18_refuted: for every chunk size a rejected value leaves an open message that swallows the next one."),
"C19": ("proved", ""),
"C20": ("partial", "REFUTED as stated by C20_refuted: a first piece of 1-3 bytes is accepted whatever the answer. C20_exact_partial: exactly when the handshake passes, for every write and every stream; C20_handshake_partial: in particular it is right when the answer arrives in one piece or not at all."),
"C21": ("proved", "Wrapping for any depth; the API part against a Bolt server for every call, statement, transaction and row read that the server answers with FAILURE."),
"C22": ("proved", ""),
"C23": ("partial", "C23_conn_string proves acceptance and all fields as an if and only if. REFUTED for timeouts of 9223372037 s or more (C23_refuted: the product with a second wraps); C23_timeout_partial for the others."),
"C24": ("proved", "net/url and crypto/tls are environment."),
"C25": ("proved", "Any network, any history."),
"C26": ("proved", "Any network, any history."),
"C27": ("proved", "Any network, any history."),
"C28": ("proved", "Refinement of the abstract machine of SessionSpec.v, which answers every request in isolation; where the documented rules promise nothing (see there: reading past the end, C32; a transaction still open at Close, C38; records from BEGIN/COMMIT; rows of Conn.QueryNeo left open over Commit, C37) the machine promises nothing."),
"C29": ("proved", "Proved for every call and every failure point. Beyond the statement: Conn.QueryPipeline, whose failure is acknowledged and read but which leaves a statement on the connection, so further work is refused until it is closed (C29_query_pipeline_needs_close)."),
"C30": ("partial", "REFUTED as stated by C30_rows_refuted, C30_statement_refuted, C30_pipeline_refuted (every failure point). C30_partial: a connection whose rows came from QueryNeo can be closed."),
"C31": ("proved", ""),
"C32": ("partial", "REFUTED as stated by C32_refuted (every result, every kind of read). C32_partial: the end is reported once and closing afterwards waits for nothing."),
"C33": ("proved", ""),
"C34": ("partial", "REFUTED as stated by C34_refuted (every pipeline: four nils). C34_partial: four nils are returned at the end only."),
"C35": ("proved", "Streams that end with a summary; when the discarded rest holds a failure the close reports it (C28) and C30 applies."),
"C36": ("partial", "REFUTED as stated by C36_refuted_swapped_answer (the next call gets the answer of the first query of the pipeline) and C36_refuted_pipeline. C36_connection_partial and C36_statement_partial: true for all other calls, including pipelines whose first parameter map is the bad one."),
"C37": ("partial", "REFUTED as stated by C37_refuted. C37_quiet_partial: true when no rows of Conn.QueryNeo are open. C37_sends_partial: on any network, exactly one COMMIT or ROLLBACK and two SUCCESS messages read."),
"C38": ("partial", "REFUTED as stated by C38_refuted_second_begin, C38_refuted_close and, for every network and history, C38_refuted_never_rolled_back. C38_server_partial: Begin hands out a transaction exactly when the server accepts BEGIN, so there is at most one if the server sees to it; nothing is true of the rollback."),
"C58": ("proved", "Chunk sizes below 8 or above 65535, over-long strings and big uints are excluded in the statement: C04, C13-C15, C18 show what happens then. The server answers a request as soon as it has it; waiting longer than the read timeout for an answer ends the stream."),
"C59": ("proved", ""),
"C60": ("partial", "REFUTED as stated by C60_refuted (first byte of the server's choice alone, for every user, serialisation and server behaviour). C60_exact_partial: opening succeeds exactly when the four bytes come with the first read, and returns an error otherwise; C60_opens_partial: true when the four bytes arrive in one segment; the INIT answer may be cut anywhere. C60_session_partial: then every history of calls gets its own answers."),
"C61": ("proved", ""),
"C62": ("partial", "REFUTED as stated by C62_refuted and C62_refuted_commit (a read that times out once, any queries). What holds: everything returned before the timeout is right (C62_before_partial) and the connection stays marked (C62_marked_partial), so the pool replaces it (C47)."),
"C63": ("proved", "Texts are left open: a line is identified by the place in the source that made it."),
"C64": ("partial", "REFUTED as stated by C64_refuted (the bytes written are not compared, any session). What holds: amounts, directions and order of all transfers and the bytes read are exactly the recorded ones (C64_shape_partial); a call in the wrong direction or after the end fails and takes nothing (C64_direction_partial)."),
"C65": ("partial", "REFUTED as stated by C65_refuted: no recording of a session with a failed call can be loaded (its JSON form cannot be read back). What holds: the fault is recorded at its place for good (C65_recorded_partial), recordings without faults load (C65_clean_partial)."),
"C66": ("proved", "Any network that reports network errors as such; connections over bytes are of that kind (C66_bytes_honest). C66_attempts is the loop of database/sql."),
"C67": ("partial", "REFUTED as stated, for every network: a network error during a call without a FAILURE is never returned as driver.ErrBadConn itself (C67_refuted). With a Bolt server no history of calls under any faults returns it, except Conn.Close (C67_never_refuted). The error is wrapped, its innermost error is driver.ErrBadConn and the connection is marked (C67_wrapped_partial, see C39)."),
"C68": ("proved", "Simulation between the two servers for every call; C68_own_answers carries C28 over to such servers."),
"C69": ("partial", "REFUTED as stated by C69_refuted (any network, any later history: everything is sent with the chunk size of the earlier user). C69_partial: without calls of SetChunkSize it is always 65535."),
"C70": ("partial", "REFUTED as stated by C70_refuted_accepted with C70_refuted (timeout of zero or less: opening fails before a byte is sent) and C70_refuted_tls. C70_wait_partial, C70_punctual_partial, C70_late_partial: with a positive timeout the k-th read returns within k timeouts, segments in time are read as without a timeout, a late one makes the call fail one timeout after the last segment in time."),
"C74": ("proved", "C74_joint reduces every such reader to the readers of the other theorems; C74_delivered, C74_handshake."),
"C75": ("partial", "REFUTED as stated by C75_refuted (n (2^31-1) slots for 5 n bytes). C75_decoded_partial: true for messages that are decoded; C75_any_partial: the bound for all messages. The decoder with costs is proved to be the decoder of the other theorems (Alloc.erased)."),
"C76": ("partial", "REFUTED as stated by C76_refuted (depth n+1 for a well-formed message of n+1 bytes). C76_partial: never more than the length and one."),
"C77": ("partial", "REFUTED as stated by C77_refuted (every short Read, every short Write). C77_dump: dumps are unambiguous; C77_partial, C77_lines_partial: exactly what the lines show."),
"C78": ("partial", "REFUTED at trace level by C78_refuted (different passwords never give the same log). C78_partial: true at every lower level."),
"C79": ("partial", "REFUTED as stated by C79_refuted (every connection string, every timeout). C79_others_partial: true for the other settings; C79_partial: and for the timeout as long as nobody sets it, or since the last opening if the string gives one; C79_first: parsing a new connection's string is parse_url of C23."),
"C80": ("partial", "REFUTED as stated by C80_refuted_close (any network that is down, any number of calls of Close) and C80_refuted (a pool of any size). C80_partial: places add up when every connection is put back; C80_progress_partial: no deadlock; C80_served_partial: one Close is enough for a waiting OpenPool; C80_closed_partial: a Close that returns nil has put the connection back."),
"C81": ("partial", "REFUTED as stated by C81_refuted and C81_refuted_tx (every history after which a statement is open, every network). C81_partial: every program that closes a prepared statement before it runs anything else gets the answers that are computed from the database alone."),
"C82": ("proved", "C82_stays_open: all histories, counted from outside on the network; C82_call: call by call. C82_server_matters shows that a server that answers ACK_FAILURE wrongly makes a query close the connection."),
"C83": ("proved", "C83_pool_serves: everything the program sees, in every run; C83_returns: a promised call returns when no more faults come. Excluded, as the statement says: pool Close, a refused INIT, a peer that closes the stream; nothing is promised once somebody has closed a connection in a state the machine promises nothing for (C83_unread shows why)."),
"C85": ("proved", "C85_round_trip_iff: the exact condition; C85_short_strings_iff: without the chunks. C85_or_crash: a value that does not come back crashes the receiver; for maps of a size that turns negative this depends on the version of Go (mk), see C07_refuted_maps for the other case."),
"C86": ("proved", "C86_once, C86_close_nil, C86_open: all histories, any network, counted from outside. C86_leak shows that a Close that returns an error need not have closed the socket, however often it is repeated."),
"C87": ("partial", "REFUTED as stated by C87_refuted (Begin, Close, Commit). C87_partial: exactly the calls that use a closed socket, in every reachable state."),
"C88": ("partial", "REFUTED as stated by C88_refuted (a connection is handed back, then another goroutine closes the pool: the pool's Close writes the poolDriver field of the boltConn that the connection's Close has read and written, and nothing orders the two). C88_partial_kinds: that, and two calls on one connection, are the only possible races, with any synchronisation the callers add. C88_partial_open: none at all while the pool is not closed and every goroutine uses its own connections."),
"C89": ("partial", "REFUTED as stated by C89_refuted, C89_refuted_open (whatever the network does) and C89_refuted_clean_up (the panic). C89_answers_partial: an object or result is returned exactly when no error is; C89_nil_partial: PreparePipeline, Begin and the QueryPipelines return nil exactly when they fail."),
"C90": ("proved", "C90_recovery, for every run in which no call runs out of fuel (a call that never returns, C40; its unfinished conversation is not covered). C90_tape_is_faithful: the recording network answers as the one it records."),
"C91": ("partial", "REFUTED for the README's slow program by C91_refuted, C91_refuted_always (it never returns where the example does). C91_programs_partial: all three programs, for every database, against functions of the database alone; C91_over_bytes_partial: the same from opening on over the byte stream; C91_slow_comments_partial, C91_quick_comments_partial: the comments; C91_unique: nothing else can happen. Close run by defer while the program panics is not followed."),
"C92": ("partial", "REFUTED as stated: C92_refuted (credentials lost at / ? #), C92_refuted_settings, C92_refuted_tls (malformed settings dropped, TLS with them). C92_written_partial: every string of the grammar is read as what it was written from; C92_configured_partial: through to the configuration and the host dialled; C92_verbatim: exactly which credentials need no escapes. Conversely, for every string: C92_sent, C92_host, C92_settings: credentials, host and settings that are used are written in the string, at their places; C92_unreadable: nothing is done with a string that cannot be read. net/url is modelled from its documentation (Go 1.17 and later); host names with escapes or non-ASCII bytes, IPv6 zones, paths with escapes and fragments are in the model but not in the grammar of C92_written_partial."),
"C93": ("partial", "REFUTED below size 1: C93_refuted (panic exactly for negative sizes), C93_refuted_empty (size 0: nothing returns any more). C93_made: for every other size the constructor gives the pool machine its first state; C93_serves_partial: it hands out up to its size. That later calls return when connections are given back is C80; sizes for which memory does not suffice are not modelled."),
"C94": ("partial", "REFUTED as stated by C94_refuted (any password with a character that is not allowed unescaped: its text is in the error). C94_partial: for every string of the grammar of C92 the error is the same for any other password; C94_read: the same for every string that net/url reads, whatever its scheme; C94_texts: the model has a text exactly where the configuration is refused. The texts are modelled byte by byte except the stack trace and the reason given by net/url, which are arbitrary; strings without a scheme have an arbitrary text too. Errors after the dial (network, server, TLS files) are not covered."),
"C95": ("partial", "REFUTED in its last sentence by C95_refuted: from the text of the connection string to the message, for every answer that does not begin with four zeros. C95_partial: what opening sends, on every network (also for opening that never ends, with any fuel); C95_once: INIT and the handshake once in the life of the connection, whatever is called; C95_recipients: exactly which servers are sent INIT, over bytes, when the twenty bytes of the handshake were written; C95_minutes_are_faithful: writing down what happens changes nothing. A Write that takes fewer than twenty bytes without an error, which io.Writer forbids, is left to C20."),
"C96": ("partial", "REFUTED as stated: C96_refuted, C96_refuted_pool (any socket not closed by this process passes the check and is handed out without dialling, in every state of the pool machine), C96_refuted_for_ever (any number of users of one place, each with any number of calls of ExecNeo, QueryNeo and Begin and then Close, when the server has shut down its side and accepts what is written). C96_sees: exactly what the check sees; C96_harmless: it does not change what is read afterwards; C96_partial: connections closed by this process are not handed out. The read of no bytes is modelled from package net (internal/poll.FD.Read returns at once; tls.Conn.Read too after its handshake)."),
"C84": ("partial", "REFUTED as stated by C84_refuted (the pipeline that is in the caller's slice at the time of ExecPipeline is run, for any two pipelines of the same length) and C84_metadata_refuted. C84_partial: true for a program that does not run a pipeline again after writing into its slice nor asks again for metadata it has written into; in particular rows being read are not affected. C84_overwritten: the exact effect."),
"C73": ("partial", "REFUTED as stated by C73_refuted (any number of network connections left open by a pool of one). C73_partial: true when nothing fails on the network."),
"C72": ("proved", "C72_system, C72_returns: interleaving at the level of calls, with misbehaving clients; C72_amid: the database changes before every query, also inside a call. C72_over_bytes, C72_over_bytes_returns: the same with the bytes in between, for every client whose own requests fit the format, whatever bytes the others send."),
"C71": ("partial", "REFUTED as stated by C71_refuted (NextPipeline takes a SUCCESS cut short for an answer without metadata) and C54_refuted. C71_reported_partial, C71_eof_reported_partial: everything else that goes wrong makes the call fail (QueryNeoAll excepted); C71_value_partial, C71_beside_error_partial: the value beside an error makes a difference only when it is SUCCESS beside a bare io.EOF."),
"C56": ("proved", "Any network, any history; the log is faithful to the network without it."),
"C39": ("partial", "REFUTED as stated by C39_refuted_eof (stream closed by the server) and C39_refuted_query_all (an error lost by QueryNeoAll). C39_network_errors_partial: every other network error marks the connection and is returned, as ErrBadConn or under the FAILURE message that made the driver close the session."),
"C40": ("partial", "REFUTED as stated by C40_refuted (server that answers FAILURE for ever). C40_finite_server_partial: true for every server that sends finitely many messages, with an explicit bound. C40_hears_partial: on every network, a call that goes on for ever receives messages for ever."),
"C54": ("partial", "REFUTED as stated by C54_refuted (any records followed by a message cut short) and in bytes by C54_refuted_bytes. C54_end_partial: otherwise the end is the SUCCESS message last read."),
"C55": ("partial", "REFUTED as stated by C55_closed_refuted and C55_lost_refuted (rows read after their statement or connection was closed), C55_refused_refuted and C55_all_refuted (a query refused three times), C55_scan_refuted (Next with too few cells), C55_decoder_refuted. C55_partial: on every network whose messages the decoder does not panic on, the first panic of every history is one of these; C55_others_partial: all other calls never panic."),
"C41": ("partial", "REFUTED as stated: C41_refuted_initialize_twice (initialize itself puts the connection back twice when a refused INIT is not acknowledged properly), C41_refuted (then, for every pool size, nothing returns any more), C41_refuted_double_close. C41_partial_bound, C41_partial_no_blocking: true for every interleaving when each connection is put back once. C41_initialize, C41_calls: the pool machine covers what the session model does."),
"C42": ("partial", "REFUTED for callers that close twice by C42_refuted. C42_partial, C42_partial_once: true for every interleaving of careful callers."),
"C43": ("partial", "REFUTED as stated by C43_refuted_any_network and C43_refuted (queries on the closed handle run). C43_partial: true of connections without a pool."),
"C44": ("partial", "REFUTED as stated by C44_refuted_initialize and C44_refuted. C44_partial: true when failures of initialize after dialling are network errors (or there are none)."),
"C45": ("partial", "C45_partial_closed and C45_partial_refuses: the first half is true for every run. The second half is REFUTED by C45_refuted (every pool size) and C45_refuted_while_waiting; C45_partial_never_held_up, C45_partial_returns: Close returns once it has the lock."),
"C46": ("partial", "REFUTED as stated by C46_refuted_rows and C46_refuted_transaction. C46_partial: true for every history against a Bolt server after which Close is promised to return nil and no rows of QueryNeo and no transaction are open. C46_next_user_partial: then whatever the next user does is answered as on a new connection."),
"C47": ("partial", "REFUTED for the end of the stream by C47_refuted_end_of_stream and C47_refuted. C47_partial, C47_partial_replaced: true for every interleaving of careful callers otherwise."),
"C57": ("partial", "REFUTED as stated by C57_refuted (INIT failed) and C57_refuted_first_error. C57_partial: true, for every run, of every network connection on which INIT succeeded; C57_stopped_partial: a connection at which the pool's Close stopped is closed by its user's Close."),
"C48": ("proved", "Sizes as in C06. 'Sends nothing' is by construction: the conversion precedes every send (see Session.v). C48_panics documents the panic on a marshalled non-map."),
"C49": ("partial", "REFUTED as stated by C49_refuted (lists of 128-255 elements). C49_exact_partial: exactly which rows it is true for; C49_next_partial: in particular rows whose collections are Transmissible, with strings of at most 65535 bytes."),
"C50": ("proved", ""),
"C51": ("partial", "REFUTED as stated by C51_refuted_short_read and C51_refuted_one_byte. C51_replay_partial: true when every transfer is complete, at least two bytes, without error. C51_exactly: those are the only sessions that replay, as long as no call asks for nothing. C51_program_partial: a client that decides from what it reads what to do next gets the same answers and makes the same calls on the replay."),
"C52": ("proved", ""),
"C53": ("proved", ""),
}
thms = {}
for f in sorted(glob.glob(os.path.join(root, "rocq/theories/Props*.v"))):
    for m in re.finditer(r"^(?:Theorem|Lemma)\s+((C\d+)_\w+)", open(f).read(), re.M):
        thms.setdefault(m.group(2), []).append(m.group(1))
claims = []
for line in open(os.path.join(root, "properties.jsonl")):
    i = json.loads(line)["id"]
    st, note = N.get(i, ("partial", PENDING))
    if i in N and st != "not_applicable" and not thms.get(i): raise SystemExit("no theorems for " + i)
    if i in thms and i not in N: raise SystemExit("no note for " + i)
    claims.append(dict(property=i, status=st, theorems=thms.get(i, []), note=note))
json.dump({"claims": claims}, open(os.path.join(root, "MANIFEST.json"), "w"), indent=1)
print({s: sum(c["status"] == s and bool(c["theorems"]) for c in claims) for s in ("proved", "partial")})
