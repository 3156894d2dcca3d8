# Formal model of ngortheone/yuubind in Rocq (Coq 8.16.1)

## 1. Approach

The repository holds three Rust crates: `smtp-message` (parsers, builders, DATA escaping and unescaping),
`smtp-server` (the session loop) and `smtp-queue` (delivery of queued mails).  The model is a set of total, computable
Gallina functions in `rocq/theories`, one definition per Rust function (or per match arm or closure of a long one), each
citing the lines it models.  Bytes are `N` (the theorems hold in particular for 0..255), byte strings `list N`.

* A `panic!`, failing `assert!`, `unwrap` or out-of-range index is an explicit outcome of the model (`Panic`,
  `CompletePanic`, `LinePanic`, `None`, `BPanic`), never a default value.
* An `async fn` is the sequence of its effects.  Its only suspension points are polls of the incoming stream and of the
  writer.  The incoming stream is a list of events (`Pend` = `Poll::Pending`, `Chunk b` = `Poll::Ready(Some(b))`), after
  which it answers `None`; a ghost counter records polls after that.  `DataStream` is modelled at the level of single
  polls; a poll that answers `Pending` is repeated by whoever awaits.  `Async.v` models `interact` again as the state
  machine the compiler makes of it (what one `poll` does, what is kept between polls, any schedule of `Pending` answers
  of writer and configuration); C62 shows both models agree, so every theorem about `interact` holds under every
  schedule.  The outgoing sink is there any state machine, also while it is not ready (`any_sink`).  In C62-C64 the
  futures of the configuration change the configuration's and the user's state only when they finish, and when they are
  pending is a schedule given beforehand (which may be any); C70 (`AsyncUser.v`) drops this: they are any state machines
  there, which suspend, change state while pending, never finish or panic.
* User code is quantified over: `Config` is a record of arbitrary functions over arbitrary state types, `handle_mail` an
  arbitrary interaction tree with its `DataStream`, the writer an arbitrary state machine that may fail at any call, and
  the sink under `DataSink` an arbitrary oracle.
* Loops that are not structural take fuel and have an explicit out-of-fuel result; theorems show it is never returned
  (`C14_always_terminates`, `C35_sessions_end`, `C06_sink_total`, `C50_*`; the stream theorems state the result outright).
* The queue is a labelled transition system: tasks run programs that transcribe `run` and `send_queued_mail`; storage,
  transport, clock, scheduler, crashes and restarts are nondeterministic.

Files: model files (`Bytes`, `Nom`, `SmtpString`, `Ip`, `Message`, `Reply`, `Stream`, `Interact`, `ByteSlice`,
`SliceParser`, `Write`, `Queue`, `Fuzz`, `FuzzInteract`, `Async`, `AsyncUser`, `SinkFuture`, `Work`) contain definitions only; `Spec*.v` are the independent specifications
(text grammars, line-level transfer, dialogue, exchange, reply and queue vocabulary); `*Proofs.v`, `*Lemmas.v`, `RoundTrip.v`,
`IpText.v`, `DataLines.v`, `QueueTime.v`, `QueueLive.v`, `QueueFair.v` are proofs; `Prop*.v` hold the property theorems, each followed by
`Print Assumptions` or an example that meets its hypotheses.  `RepoTests.v` and `RepoSessions.v` replay the repository's own
unit tests on the model (tests of the transcription, not proofs).

## 2. Properties, what is modelled, how it is proved

`properties.jsonl` has the statements, `MANIFEST.json` the exact theorem names.

| id | modelled | specification | proof method |
|----|----------|---------------|--------------|
| C01-C05, C09, C53 | `DataStream` poll by poll, `Prependable`, source events | `transfer`, `interrupted` (SpecData: lines, dot-unstuffing) | refinement of the poll machine to a byte automaton (induction on fuel and events), automaton vs. line grammar by induction on lines; C53 by an invariant quantified over all continuations |
| C06, C08 | `DataSink::send/end` over a sink that may fail | `message_encoding` | fold invariant, automaton vs. lines |
| C07 | both | `normalised` | composition through the line grammar |
| C10-C12 | `next_crlf_line`, `Prependable` | lines | induction on events |
| C13-C18, C21, C22 | nom 3.2 combinators, every `command_*_args`, `Command::parse`, `send_to` | `command_text` (SpecGrammar: inductive text grammar with its own character sets) | soundness and completeness per parser with follow-set side conditions |
| C19, C20, C23, C24 | `Email`, `Domain`, std IP parsers and printers (Rust 1.42) | `email_text`, `domain_text`, `local_means` (SpecGrammar); `ipv4_text`, `ipv6_text` (SpecIp: grammar of address texts) | same; IP parser vs. grammar both ways, IP codec by digit lemmas |
| C25-C27 | `ReplyLine` | `three_digits`, `reply_on_wire` | direct |
| C28, C29 | `byte_chunks` with wrapping `usize`, `send_reply` through futures' `With` adapter | `chunked`, `full_reply` | arithmetic, induction |
| C30-C39, C41 | `interact`, `handle_line`, `Config`, `DataStream` underneath | `dialogue`, `partition`, `replay`, `open_transaction` (SpecSession, SpecExchange) | refinement to a session specification on the byte sequence; invariants on traces; simulation between two runs |
| C40, C47 | sending half + server | `delivered`, `client_sends` | composition of C13-C16, C06, C33 |
| C62-C64 | `interact` as a future, poll by poll (Async.v) | `between`, `source_pending`, `user_pending` (SpecAsync) | simulation between the state machine of the `async` blocks and the sequential model, by induction on the program; what a poll asks for and what is flushed by invariants over the remaining program; for any sink (`*_any_sink*`): a lock-step simulation by a session whose writer is given the sink's final answers and whose schedule its `Pending` answers (AsyncReplay.v) |
| C70 | `interact` poll by poll with the configuration's futures and the mail handler's as arbitrary state machines (AsyncUser.v) | `answering` (a configuration that reads its answers from a list), `matches`, `are_answers_of` (the answers come from the user's futures, run one after the other), `lawful`, `accepting_user`, `keeping_user` (SpecUser) | the same program run on the answers the user code turns out to give: a relation `R` between a future and a sequential computation, kept by `await` and sequencing, by induction on polls and on the program (AsyncUserProofs.v); C31, C33, C35, C36, C40, C47 carried over; flushing by an invariant over the remaining program (AsyncUserFlush.v); pending for a reason, counting and ending (SpecUserWaits, PropUserWaits) by properties kept by every part of the program (AsyncUserWaits.v) |
| C66 | `DataSink` as futures, poll by poll, over any `Sink` (SinkFuture.v) | `message_encoding`, C08's receiver | every poll sequence is replayed by an oracle of the sequential model, by induction on polls and on the task |
| C65 | `DataStream`, `next_crlf_line`, `interact` | `fits` (SpecMemory: packet sizes) | invariant on buffer sizes over polls, handlers and lines; witness for unbounded lines |
| C42-C45, C48, C49, C54, C60, C61 | `run`, `send_queued_mail` | per-task `history`, `sending`, `quick`, infinite `execution`s (SpecQueue) | inductive invariants over all steps; progress by a variant; fairness by a ranking of the handling task and a bound on the returns to the queue; witnesses for the negative results |
| C68 | `run`, `send_queued_mail`: how each task's future completes | `watched`, `completed`, `untouched`, `taken_up` (SpecQueueEnd) | invariant on the program left of a watched task; on the scan: what has been listed and what has been started |
| C71 | std's `Display` for IP addresses (Rust 1.42), `Domain::send_to` | `text4`, `text6` (SpecAddr: numerals without leading zeros, first longest run of zeros) | loop invariant of the zero-run search; digits by division; uniqueness of numerals by induction |
| C72 | the loops of `next_crlf_line`, `DataStream::poll_next`, `DataSink::send` with a counter (Work.v); `C72_counting`: without the counter they are the functions of Stream.v | `lines_read`, `data_polled`, `left_over` (SpecWork) | amortised: what is left over pays for each poll; induction on packets for lines; exact sum for the quadratic case |
| C73 | as C70 (AsyncUser.v) | `waits_for_client`; sessions of Interact.v on what came (SpecSession, SpecUser) | the poll that ends so ended in `next_crlf_line` (every other part waits for the user or the sink: a property of the remaining program, AsyncUserIdle.v); up to there the session is a sequential one by the relation `R` of C70; a sequential session that waits for a line does not depend on what it has not read (TruncProofs.v, the converse of C52); then C33, C40; flushed by the invariant of C70 |
| C74 | every parser of Message.v and Reply.v with a counter of the bytes looked at (NomWork.v); `C74_counting`: without the counter they are those parsers | none: the bound is on the count | each parser is classed by what it costs when it succeeds (a multiple of what it consumed) and when it fails (a constant, or a multiple of the input); a repetition consumes at every pass, a choice in a repetition fails cheaply or at the same bracket (NomWorkProofs.v) |
| C75 | `DataSink` (Stream.v) as in C06 | `liberal_transfer`, `hidden_end` (SpecLiberal): lines ended by LF; `transfer` (SpecData) for this crate's receiver | the encoding cut at its LFs is the text cut at its LFs with the lines after a CRLF stuffed; the first end among them (LiberalProofs.v) |
| C76 | `interact`, `command_send`, `DataSink`, all hops composed | `takes`, `sends_on`, `passed_on` (SpecRelay): servers as black boxes from bytes to accepted mails | invariant of `dialogue`: addresses of the transaction were parsed, so well formed (C15); texts of complete transfers end in CRLF or are empty, where normalisation does nothing; C40 for each hop, induction on the hops |
| C77 | `interact` against a client that reads its replies | `talks`, `reads`, `honest` (SpecAgree): the client as a relation between codes read, bytes sent and mails believed delivered | replies on the wire are uniquely readable; induction on the client's behaviour along the `dialogue` (C33), for every beginning of the trace (C37 for failing writers) |
| C69 | all `ReplyCode` constants, `ReplyCode::custom` | the list of RFC 5321 4.2.3; `three_digits`, `rfc_reply_line` | arithmetic on the digits; C58 |
| C67 | the parsers and `nom_to_result` | the grammars of C13, C19-C27 | soundness and completeness of each parser on a text followed by anything; C14 |
| C46, C55 | `ByteSlice` with explicit offsets, nom macros on it, all parsers on it | the byte string the slice shows | arithmetic; agreement of each combinator and parser with its byte-string version |
| C56 | the default methods of `Config`, `interact` | literal bytes, `explained` (SpecDefault) | C33 and C35 instantiated; induction on the dialogue |
| C57 | every `send_to` as a sequence of `write_all` calls on an arbitrary `io::Write` (Write.v), `from_sendable`, the fixed-capacity buffer | `writes` (SpecWrite) | composition lemma for `?`, induction on the calls of `write` |
| C58 | the same parsers and writers | the RFC's own grammar with meanings (SpecRfc) | inclusion of the RFC's grammar in the accepted one (C13, C27), structural induction; addresses via IpText |
| C59 | `interact`, `send_reply` through `With` | `supervise` (SpecSink): a writer that judges the calls made of it | invariant on the verdict and the adapter's slot, through every command; supervision is a simulation; `C59_any_sink`: `contract` (SpecAsync) on the calls of any sink, at every moment of the polled session, by an invariant over the remaining program (AsyncContract.v) |
| C50, C51 | the four fuzz targets | their own assertions | naive decoder = automaton; lawful configuration |
| C52 | `interact`, `next_crlf_line`, `DataStream`, writer flushes | same session with further events appended | locality of every reader, lifted through handlers and sessions |
| C78 | `interact`, `send_reply` | `crlfs`, `how_many`, `lines_of_replies`, `fits` (SpecBound): counts over the trace | induction on the `dialogue` of C33, each line paying for its reply and calls; failing writers by C37, user futures by C70; the bounds are reached (C40 for any number of recipients, the dialogue of n empty lines) |
| C79 | `interact`, `DataStream`, `DataSink`, `Command::send_to` | `settles`, `packets`, `replies_are` (SpecSettle): turns of sent bytes and codes read, for any choice of parameters and any way to feed the sink | induction on mails and recipients over the states in which the server waits with nothing unread (C52); each turn is one line of the dialogue of C33, the text by C06 and C01 |
| C80 | `run`, `send_queued_mail` | `on`, `alive`, `listed`, `put_back` (SpecTasks) over the transition system | invariant: the weights of the tasks of a mail never exceed its listings (a task that cancels passes its weight to the one it starts; a task that has listed something never cancels), with the histories of QueueProofs.v |
| C81 | `interact` | `done`, `separately` (SpecFresh) over `obs` traces | the dialogue (SpecSession) that C33 gives of a session is shown to be determined by the bytes (`C81_one_dialogue`), and two dialogues to make one when the first is done; a transaction open in the state is one that shows in the trace |

## 3. Trusted base

* The Coq 8.16.1 kernel, including its `vm_compute` (used for finite computations in examples and for character-class checks).
* Axioms: none.  `Print Assumptions` answers "Closed under the global context" for every theorem listed in MANIFEST.json
  (the command is in the sources, so the build log shows it).  `vcheck` additionally lists seven constants
  `Coq.ssr.ssrunder.Under_rel.*`: they are the fields of a module type of Coq's own standard library that is loaded by
  importing the library; no theorem here depends on them.
* The reading of /repo in the cited definitions, and of the libraries whose sources are not in the sandbox: nom 3.2 macros
  (`Nom.v`), futures 0.3.4 (`Sink::with`, `send_all`, `StreamExt::next`), itertools 0.7 (`with_position`), bytes 0.4
  (`Bytes` as a byte string), Rust 1.42 `std::net` parsing and printing (`Ip.v`), `HashMap` as a finite map with unspecified
  iteration order.
* Contracts assumed of user code, stated as hypotheses where a theorem needs them: `drain_mail` (the handler reads its stream
  to the end and completes it, config.rs:41-43), `all_replies …` (texts a `ReplyLine` can carry), `reliable` writer, and for the
  queue the storage contract of `pstep` (below) and the timing hypothesis `quick`.

## 4. What is modelled

* smtp-message: `smtpstring.rs` (byte_chunks, Add, copy/take), `stupidparsers.rs`, `parseresult.rs` (`nom_to_result`),
  `builderror.rs`, `byteslice.rs` (all trait impls), `domain.rs`, `email.rs`, `parameters.rs`, `command.rs`, every command
  module, `reply.rs`, `data/sink.rs`, `data/stream.rs`, `data/mod.rs`, `streamext/prependable.rs`.
* smtp-server: `crlflines.rs`, `sendreply.rs`, `config.rs` (trait and every default), `decision.rs`, `metadata.rs`,
  `interact.rs`.
* smtp-queue: `run.rs`, `send_queued_mail.rs`, `mail.rs`, the contracts of `storage.rs`, `transport.rs`, `lib.rs`
  (random in-flight names).
* fuzz targets: `fuzz_data_parser.rs` (with its naive decoder), `fuzz_interact.rs`, `fuzz_command_parser.rs`,
  `fuzz_reply_parser.rs`.

Simplifications, each also stated at the definition:

* `Prependable<S>`: pins and `unsafe` projections are not represented; the model is the state machine they implement.
* The parsers are modelled on byte strings (`Message.v`, `Reply.v`); that the slices of the real parsers (`ByteSlice`)
  always show the same bytes and never panic is C46 and C55.
* In `Interact.v` and `Async.v` a user future that never finishes is not represented (handlers and filters are total), nor
  are panics inside user code other than those of `complete` and `was_completed`.  C70 represents both.
* `AsyncUser.v`: what a method of `Config` does before it returns its future is part of the future's first poll; the
  variables of `interact` a future borrows are kept with the future while it is pending (`interact` cannot see them then);
  a `poll` of user code that never returns is not represented.  The mail handler's `poll` is a finite tree of uses of its
  stream; it is told a bound on the polls left before the end of the stream, only so that reading in a loop can be written.
* The order of a `HashMap` is a list in the model; C15, C22 quantify over all permutations.
* Queue: an operation takes effect and answers in one step, at any later time; in-flight names are numbers never used
  before (the code draws random names); a failing operation may or may not have taken effect; a listing returns mails in any order,
  possibly repeatedly, all those present throughout.  `enqueue` is only an action of the environment (the crate never calls it).

## 5. What is not modelled

`Display`/`Debug` output and the `cause` chain of errors (no behaviour); benches; Nix and CI files; `streamext/mod.rs` (a
one-line extension trait); memory use except the input buffers (C65); CPU time except the scanning loops (C72) and the parsers (C74; hashing of parameters is not counted);
the Rust type system's guarantees (aliasing, `Send`, lifetimes) and the soundness of the `unsafe` pin projections in
`prependable.rs` and `stream.rs`; the tokio executor (any interleaving is allowed instead; wakers: `Pending` is taken to mean that the task will be woken, C63 shows it is only passed on); TLS, sockets and real storage (no code
for them exists at this commit).

## 6. Findings about the code (all machine-checked)

* `ByteSlice::slice` checks the range against `end` instead of `len()`: out-of-slice ranges are accepted for slices that do not
  start at 0 (`C46_weak_check`).  No parser of the crate triggers it (C46, C55).
* After an early end of the connection, `DataStream` may be polled back to life: `complete` then panics
  (`C05_after_early_end_refuted`); after `complete` a further poll takes pipelined commands as message text
  (`C05_after_complete_refuted`).
* A caller of `DataSink::send` that ignores an error and goes on can make the message end early (`C08_ignoring_errors_refuted`).
* `ParseError` on an unfinished line does not mean that the line is wrong (`NOOP xyz`, `EHLO foo.`, `250-foo`), so callers must
  collect a whole line before parsing, as `interact` does (`C67_error_before_the_end`).
* A `DataSink` whose pending `send` was dropped must not be used again: `end` then yields a complete message of other content
  and a stray command (`C66_end_after_dropped_send_refuted`).
* Commands built from strings with CRLF inject further commands (`C18_injection`).
* `ReplyLine::parse` accepts lines `build` refuses, among them codes written `+12` (`C27_*`).
* `byte_chunks` loses the whole text if `len + n - 1` overflows (`C28_overflow_loses_everything`), impossible for real strings.
* A reply with an empty text is not sent at all, so a client would wait forever (`C29_empty_text_sends_nothing`).
* A connection that ends inside DATA is polled once more after its end (`C39`).
  C39 and C52 hold for every mail handler that asks its stream for nothing after the end (`stops_at_end_mail`), not only for one
  that reads to the end; without that hypothesis C39 is false (`C39_hypothesis_needed`).
* A line without CRLF is collected without any limit (`C65_lines_are_unbounded`); messages are not.
* A line that comes byte by byte is searched for CRLF from its beginning at each byte: n(n-1)/2 comparisons (`C72_lines_quadratic`).
* A message with a bare LF is relayed as it is, so a message can hide commands for a receiver that takes LF for a line end
  (`C75_smuggling`); messages without bare LF are safe (`C75_crlf_is_safe`).
* QUIT, RSET, HELO, EHLO, NOOP… are all answered "not implemented" and change nothing (`C41`).
* As RSET does nothing, a client that abandons a mail with it and sends another gets the second text delivered under the first sender to the recipients of both
  (`C77_rset_mixes_mails`); a client that does not wait for the go-ahead lets its text choose recipients (`C77_without_waiting`).
* The number of recipients of a mail is not limited (`C78_no_limit`); an empty line of 2 bytes is answered with 28 (`C78_amplification`).
* A client whose recipients or text were refused has no way to begin another mail on the same connection (`s_no_recipient`, `s_text_refused` end the talk: MAIL is refused and RSET not implemented).
* Retries do not leak tasks: a mail never has more tasks than the times it was listed (`C80_tasks_for_a_mail`); a storage that lists a mail twice gets two (`C80_listed_twice`).
* RSET is not implemented, so a client cannot close a transaction but by sending the mail: what it sends next is then not dealt with as on a new connection (`C81_not_done`).
* Queue: a slow startup scan in a single instance, or a delivery longer than one hour with two instances, delivers a mail twice
  at the same time (`C44_slow_scan_two_deliveries`, `C44_bound_is_exact`); a crash between transport and `send_done` delivers twice
  (`C49_crash_delivers_twice`); refused mails are retried at once and without limit (`C48`); mails enqueued after the scan, and
  mails whose storage operation failed, wait for the next restart (`C45_late_mail_waits`).

## 7. Testing the theorems

`seeded/LOG.jsonl` has one line per wrong program tried: the definition edited in a scratch copy, the edit, the claim it
breaks, the theorems that then failed to prove and those tightened because they did not.
