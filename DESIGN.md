# Formal model of golang-neo4j-bolt-driver

All Coq sources are in `rocq/theories` (logical name `Verif`). Only the Coq standard library is used.

## Layers

| file | models | role |
|---|---|---|
| `GoPrims.v`, `PrimLemmas.v` | Go fixed-width conversions, `encoding/binary` big endian, maps | model, lemmas |
| `Value.v` | Go values that can meet the codec (`interface{}`), `structures/` | model |
| `Encoder.v` | `encoding/encoder.go`, `Marshal` | model |
| `Decoder.v` | `encoding/decoder.go`, `encoding/util.go`, `Unmarshal` | model |
| `PackSpec.v` | the public PackStream / chunking description, written without looking at the code | specification |
| `EncoderProofs.v` `PackProofs.v` `DecoderProofs.v` `RoundTrip.v` `Framing.v` `CodecProofs.v` `CodecIO.v` `CodecRefute.v` `CodecOrder.v` `ReadFaults.v` | codec lemmas | proof |
| `Errors.v` | `errors/errors.go` | model |
| `Misc.v` | `result.go`, `rows.go:Columns`, `conn.go:parseURL/tlsConfig/handShake`, `init.go`, `util.go`, `log/log.go` | model |
| `Recorder.v` | `recorder.go` | model |
| `Session.v` | `conn.go`, `stmt.go`, `rows.go`, `tx.go`: one connection as a state machine over API calls, for any network | model |
| `SessionNet.v` | the network of `Session.v` in terms of the codec and the handshake: sessions over bytes | model |
| `Timed.v` | deadlines of `conn.go:Read/Write` | model |
| `ServerSpec.v` | a Bolt v1 server as a state machine with an oracle of outcomes | specification |
| `WireSpec.v` | the same server over bytes, chunking and splitting its answers as it likes | specification |
| `SessionSpec.v` | what a client may expect: an abstract machine with one outcome per query, no queues | specification |
| `SessionGen.v` `SessionErr.v` `SessionTerm.v` `SessionVoc.v` `SessionFuel.v` | invariants, errors, termination, vocabulary, fuel, for any network | proof |
| `SessionBolt.v` `SessionRefine.v` `SessionUse.v` `SessionLimits.v` | refinement of the abstract machine against the server, and where it fails | proof |
| `SessionSim.v` `SessionTrace.v` `SessionSends.v` `SessionPanic.v` `SessionRaw.v` `SessionRecover.v` `SessionBlind.v` | simulation between networks, logs of sent messages, panics, unwrapped errors, recovery by RESET, values beside errors | proof |
| `WireBytes.v` `SessionWire.v` | from bytes to messages: byte level sessions simulate message level sessions | proof |
| `Alloc.v` | `encoding/decoder.go` with the memory it allocates | model |
| `Logging.v` | the texts written by `log` calls | model |
| `SqlUse.v` | the calls `database/sql` makes of a driver | model |
| `SessionStay.v` `SessionAlias.v` | what is counted on the network; slices and maps shared with the caller | proof |
| `Pool.v` | `driver.go` pool, goroutines as an interleaving state machine | model |
| `PoolInv.v` `PoolMore.v` `PoolLive.v` `PoolLink.v` | pool invariants, liveness, the link to the session model | proof |
| `PoolSystem.v` | the pool machine and the session model joined | model |
| `PoolSysInv.v` | its invariant | proof |
| `PoolRace.v` | memory accesses of goroutines that share a pool, happens-before | model, proof |
| `Programs.v` | the programs of README.md and `examples/` as clients of the session model | model |
| `ConnString.v` | connection strings: `net/url` as `conn.go` uses it | model |
| `PoolMake.v` | the constructor of pools | model |
| `OpenError.v` | text of the error of a refused connection string | model |
| `Probe.v` | the check of OpenPool on sockets; users of one place one after the other | model |
| `OpenTape.v` | what opening says to the server, on every network | proof |
| `Handles.v` `SessionShut.v` `SessionTouch.v` `SessionTalk.v` | objects returned with errors, closing, use of closed sockets, the recovery dialogue, for any network | proof |
| `ExactTrip.v` `Truncate.v` | exact conditions of the codec's round trip, messages cut off | proof |
| `Recordings.v` `Conform.v` `ConformServer.v` | the recorded executions in `recordings/`, run in the model | validation |
| `Props*.v` | the property theorems with examples and `Print Assumptions` | statements |

Tools: `tools/mkprops.py`, `tools/mkmanifest.py`, `tools/mkassumptions.py`, `tools/mkrecordings.py` write the files
of the same name; `tools/mutate.py` is the mutation test (`seeded/`).

## Modelling decisions

* **Bytes** are `Z` (a Go byte is `0 <= b < 256`); lengths are computed in `Z`. Go's fixed-width conversions are
  explicit wraps (`GoPrims.v`). `int`/`uint` are 64 bit.
* **Panics** are values (`DPanic`, `Panic`), never hidden by defaults. Errors are values.
* **Fuel**: the decoder recurses on explicit fuel that is proved never to run out (that *is* the termination theorem).
  In the session model fuel bounds the loops that read responses and the nesting of `Conn.Close`; a run that exhausts
  it ends in `NoFuel`, a separate outcome, and C40 is about exactly that.
* **Maps** are association lists; the list order is the order in which Go happens to iterate. Nil and empty
  maps/slices are identified (both encode to the same bytes; the decoder returns only non-nil ones, except beside an error).
* **Floats** are their IEEE bit patterns; `float32 -> float64` is modelled on bit patterns.
* **Network**: a reader is a list of segments (what successive `Read` calls return), a writer is a list of `Write`
  calls, possibly with a failure point. The session model takes any network as a parameter; `ServerSpec.v` gives a
  queue of decoded responses plus a server reacting to each request, `SessionNet.v` a byte stream; C58 relates the two.
* **Time** is modelled only in `Timed.v`. Elsewhere waiting for a response that never comes is visible as the
  read-deadline error (`ErrBadConn`).
* **Goroutines** appear only in the pool model, as interleaved atomic steps.

## How each property is modelled and proved

Codec (C01-C12): `enc` returns the list of `Write` calls and an optional error. `PackSpec.v` defines abstract
PackStream values `pval` and the relation `PS p bytes` of all valid encodings with unsigned sizes.
C01 `enc` conforms to `PS`; C02 minimal length among all `PS` encodings; C03 an inductive predicate `Rejected`
equivalent to error; C04 refuted for `uint`, proved for the other kinds; C05 `PS` is prefix-free and injective;
C06 decode after encode by induction on values; C07 refuted with general families of witnesses; C08 decode of any
`PS` encoding with sizes below the signed limits; C09 fuel sufficiency and prefix consumption, panics exhibited;
C10 refuted; exactly what every cut of every encoding decodes to (`Truncate.v`); C11 canonical form by induction; C12 permutation at every level.

Framing (C13-C19): `chunk`/`flush` on write lists, `read_msg` on segment lists. C13 exact iff; C14, C15 refuted and
characterised exactly by the bytes left waiting; C16 equality with reading the flat stream; C17 prefix at each failure point;
C18 proved below one chunk, refuted above; C19 corollary of C13.

C20 handshake as function of segments: refuted, proved for unsplit answers. C21 induction on chains, plus each API call
in the session model. C22, C50 total functions on metadata. C23, C24 decision tables over a parsed URL
(C92 starts from the text).

Session (C25-C40): `step : world -> op -> world * out` with a heap of statements, rows and transactions, generic in
the server. Invariants by induction over op lists for C25-C27 (any server). C28-C31, C33, C35, C37 by refinement to
`SessionSpec.v` with the Bolt server of `ServerSpec.v`. C30, C32, C34, C36, C38, C39, C40 have refutations by concrete
or parametric histories and the true part proved.

Pool (C41-C47): interleaving machine; counting and ownership invariants; refutations by explicit schedules.

C48, C49 on top of the codec. C51, C64, C65 recorder machine. C52 finite decision. C53 real values of bit patterns,
as dyadic rationals in `Z`. C54 reading errors in the middle of a result. C55 weakest-precondition style analysis of
every call: which calls can panic, in which states; one family of histories for each. C56, C59 logs of everything
handed to the network. C57 pool machine. C58 simulation between the session over bytes and the session over messages:
for every server that speaks Bolt v1 over any splitting and chunking, so the message level theorems (C28-C38) hold for
bytes. C60 opening over bytes. C61 exact behaviour of the decoder on failing reads. C62 a network that times out once.
C63 rendering of error chains. C66, C67 which errors are `driver.ErrBadConn` itself: observations of the network for any
network, an invariant of the queue of answers for a Bolt server with arbitrary faults. C68 simulation of a server that wants RESET.
C69 log of chunk sizes on a pooled connection. C70 transport with deadlines, schedule of arriving segments.
C71 two simulations: between a network and the same network with the values beside errors replaced. C72 a server with one
database and many sessions; each client's view simulates the single connection of C28, and its relation to the abstract
machine does not depend on the database; `PropsSystemWire.v` does the same with a byte stream per client (the simulation of
C58, call by call). C73 open network connections inject into the connections in the pool or in use.
C74 simulation between two kinds of readers. C75, C76 the decoder with costs (`Alloc.v`), erasure to the decoder. C77, C78
the texts of the log (`Logging.v`) against a grammar of dumps; two runs that differ in the password. C79 histories of the
settings of one place of the pool. C80 the places of a pool are conserved; the lock and who can step. C81 the calls
database/sql makes for a program (`SqlUse.v`), against answers computed from the database alone. C82 what is counted
on the network: closings of the socket and RESET messages, and the calls of reclaim (`SessionStay.v`). C83 the pool machine
and the session model joined (`PoolSystem.v`): each call on a pooled connection is a call of the session model on the session
of its network connection with the one server of C72; invariant in `PoolSysInv.v`.
C84 two runs of the session model that differ in the slices and maps the driver shares with its caller (`SessionAlias.v`).
C85 the decoder on the encoder's bytes, also where sizes turn negative; a value needs at least its minimal encoding, which
rules out overlong messages (`ExactTrip.v`). C86 the network with a count of closings; whoever closes returns an error
(`SessionShut.v`). C87 the network with a count of the uses after closing (`SessionTouch.v`).
C88 the trace of memory accesses, locks and channel operations of the pool machine with the happens-before relation of
the Go memory model; invariant: what each goroutine, the holder of the lock and the channel know about (`PoolRace.v`). C89 postconditions of all calls, handles as Go interface values (`Handles.v`).
C90 the network with a tape of what was sent and received, and an automaton that reads it (`SessionTalk.v`); the rules
themselves are about the tape only.
C91 programs as coinductive trees of calls and printed lines (`Programs.v`), against functions of the database alone.
C92 a grammar of connection strings, relations that do not mention the parser, against `net/url` as a function
(`ConnString.v`). C93 the constructor of pools on Go's int (`PoolMake.v`), which gives the first state of the pool machine.
C94 the text of the errors of Open byte by byte (`OpenError.v`), for any wording of net/url.
C95 a network that keeps minutes of handshake, messages and closing (`OpenTape.v`), and C92 for the way from the text to INIT.
C96 sockets with deadlines, as package net reads them, for the check of OpenPool (`Probe.v`), which Pool.v leaves open.
C20, C60 exactly in `PropsOpen.v`; C40 for any network by a simulation with a network that stops delivering (`PropsTerm.v`).

A property that is false of the code keeps its full statement in `properties.jsonl`; a theorem `..._refuted` gives
witnesses (families of them where possible) and `..._partial` theorems give the strongest true version found.
Its status in `MANIFEST.json` is "partial" with the word REFUTED in the note. Where a proved property's name in the
manifest is followed by theorems with other suffixes, all of them together make up the claim.

## Validation of the model

The repository contains recordings of the driver's own tests against Neo4j 3.4.6. `Conform.v` runs 30 of the 32
recorded sessions in the byte level model: with the calls of the test the model writes exactly the recorded bytes,
reads all recorded bytes, and returns what the test asserts (three recordings have no test in the repository any more;
they are run with calls that reproduce them). `ConformServer.v` checks the server specification on 29 of them: given
the requests, and the outcomes of the queries, it produces the recorded answers. Two recordings
(65536 list elements, 65536 map entries in random order) are too big to run in Coq. The pool tests are not recorded.

Every property can be expressed in a model; none is "not applicable".

## Trusted base

* Coq 8.16.1 kernel, including `vm_compute` for closed computations (witnesses, recordings).
* No axioms: every property theorem is closed under the global context, see `ASSUMPTIONS.md` (one line per theorem,
  from `Print Assumptions`). No module types or functors, no plugins, no disabled checks. `coqchk` lists seven axioms of
  the standard library, `Coq.ssr.ssrunder.Under_rel.{Under_rel, Under_rel_from_rel, Under_relE, Over_rel, over_rel,
  over_rel_done, under_rel_done}`: they come with a library that Coq loads (through `lia`), no theorem depends on them.
* The faithfulness of the model to the Go source, by reading; each definition cites file and lines. Checked against
  the recorded executions, as above.
* The specifications `PackSpec.v`, `ServerSpec.v`, `WireSpec.v`, `SessionSpec.v`: written from the public
  descriptions.

## Modelled code

* `encoding/encoder.go`, `encoding/decoder.go`, `encoding/util.go`: all functions.
* `structures/`: the graph types and messages as constructors of `goval`, with `Signature` and `AllFields`.
* `errors/errors.go`: `New`, `Wrap`, `Inner`, `InnerMost`, `Error`.
* `result.go`, `util.go`, `log/log.go` (levels only).
* `conn.go`: `parseURL`, TLS configuration decisions, `handShake`, `initialize`, `Read`, `Write`, `Close`, `ackFailure`,
  `reset`, all `Prepare/Exec/Query/...` calls, `Begin`, `consume`, `consumeAll...`, `sendRun...`, `SetChunkSize`.
* `stmt.go`, `rows.go`, `tx.go`: all methods.
* `driver.go`: `OpenNeo`, `Open`, `OpenPool`, `reclaim`, `Close`, initialisation of the pool.
* `recorder.go`: `Read`, `Write`, `Close`, `lastEvent`, `record`, `recordErr`, `load`, `writeRecording` (as data).

## Simplifications and what is not modelled

* Go's scheduler and memory model: a connection is used by one goroutine (it is documented as not thread safe); pool
  operations are atomic between channel and mutex operations. C88 (`PoolRace.v`) says which accesses of the pool are
  ordered by happens-before; where they are not, behaviour outside the interleavings is not modelled.
* Time. A read or write that takes too long is a failing one (`RFail`, `RNet`). When that is the case is said in
  `Timed.v`, for the reads of one call; the client's own work takes no time.
* Memory limits: `make([]T, n)` with a huge `n` from the wire allocates in Go before reading; in the model the read
  simply comes up short, and stack depth is not limited. C75 and C76 say how much is asked for.
* `net/url` is not part of the repository. `ConnString.v` follows its documented behaviour in Go 1.17 and later (older
  versions also accept `;` between settings and do not check user names); it is used by C92 only, C23 and C24 are about
  parsed URLs.
* `crypto/tls`, `net.Dial`, `os`, `encoding/json` and `log.Logger`: their results are inputs. For JSON only
  the fact that a non-nil `error` cannot be read back is used (C65).
* Readers that return data together with an error: in `PropsLate.v` for the decoder and the handshake, which reduces them to
  the others. In a session an error other than io.EOF that comes with data would set `connErr` at that read, not the next.
* Values that make Go itself misbehave: a nil pointer to a structure (`(*graph.Node)(nil)`) and a user's `AllFields` that
  panics make the encoder panic, and a value that contains itself recurses until the stack is exhausted. Encoder inputs are
  finite trees without these. A non-nil pointer to a structure is a `VUser` (its signature and fields are all the encoder uses).
* The text of error messages and stack traces: an error is identified by the place that made it (file and line).
* At message level, a server handles each request as soon as it is sent, and a message refused by the encoder sends
  nothing. C58 discharges both for bytes, as long as the chunk size is larger than the refused message (C18 says what
  happens otherwise).
* The value returned by the decoder together with an error is kept only up to its type (`partial_of`); C71 says
  exactly when a caller looks at it.
* Nil and empty slices/maps of the right static type are identified in values given to the encoder; a typed nil in an
  interface is modelled where the code can produce it (statement and row handles).
* Log output, except while a connection is opened (`Logging.v`), and the helpers that nothing calls
  (`sendRunDiscardAll...`, `sendPullAllConsume`).
* `SetTimeout`: stores a number that only the deadline uses; `Timed.v` takes it as a parameter, C79 says what it is.
* `database/sql` itself (it calls the driver interface, which is modelled; `SqlUse.v` has the order of its calls on one
  connection, written from memory of its behaviour; its source is not in /repo), `examples/`, `scripts/`, and tests.
* Map iteration order is the order of the association list, see C12 for why that loses nothing.
