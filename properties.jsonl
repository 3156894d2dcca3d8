{"id": "C01", "title": "DATA decoding is exact for every packetisation", "statement": "Reading a DataStream until it returns None and then calling complete() succeeds exactly when the incoming bytes have the form L1 CRLF ... Ln CRLF . CRLF R where no Li contains CRLF and none is a lone dot; the concatenation of the items yielded is then the same lines with one leading dot removed from each line that starts with a dot, each followed by CRLF. Nothing depends on how the bytes were split into packets.", "quantifier": "every byte sequence, every split of it into packets (empty packets included), every placement of Pending answers", "why_tests_cant": "the state machine looks at sliding windows and at the last two buffered bytes; the interesting cases are every position of a packet boundary inside CRLF . CRLF, for messages of unbounded size", "anchors": ["smtp-message/src/data/stream.rs: DataStream::new, poll_next, complete"]}
{"id": "C02", "title": "Packet boundaries and readiness are invisible to the reader of DATA", "statement": "Two incoming streams that carry the same bytes, cut into packets differently and with Pending answers in different places, give the same concatenated DATA output, the same result of complete(), and leave the same remaining bytes in the source.", "quantifier": "every pair of packetisations/readiness schedules of the same byte sequence", "why_tests_cant": "there are exponentially many packetisations of a byte string", "anchors": ["smtp-message/src/data/stream.rs: poll_next", "smtp-message/src/streamext/prependable.rs: Prependable::poll_next"]}
{"id": "C03", "title": "Pipelined bytes after the end of DATA are preserved", "statement": "When complete() returns Ok, the source stream, read afterwards, yields exactly the bytes that followed the terminating . CRLF, none lost, none duplicated, none reordered.", "quantifier": "every byte sequence and packetisation", "why_tests_cant": "the over-read part of the packet must be pushed back at every possible boundary", "anchors": ["smtp-message/src/data/stream.rs: complete", "smtp-message/src/streamext/prependable.rs: prepend"]}
{"id": "C04", "title": "An interrupted DATA is never reported as complete", "statement": "If the connection ends before the terminating . CRLF, complete() returns Err (and never Ok); the bytes yielded are an unescaped prefix of the message. In particular every strict prefix of the bytes a DataSink produces for a message, up to and including its terminator, is reported as interrupted.", "quantifier": "every message, every point at which the connection can be cut, every packetisation", "why_tests_cant": "a crash point exists after every byte of every message", "anchors": ["smtp-message/src/data/stream.rs: poll_next Ready(None), complete", "smtp-message/src/data/sink.rs: end"]}
{"id": "C05", "title": "DataStream yields no empty items and stays finished", "statement": "Every item a DataStream yields is a non-empty byte string; once the terminator was seen, every further poll before complete() returns None without polling the source. (After an early end of stream, or after complete(), a further poll is not guarded: the exact behaviour is stated as a refutation.)", "quantifier": "every byte sequence, packetisation and number of polls", "why_tests_cant": "must hold for every poll of every execution", "anchors": ["smtp-message/src/data/stream.rs: poll_next"]}
{"id": "C06", "title": "DataSink output is the dot-stuffed message whatever the chunking", "statement": "After any sequence of send() calls followed by end(), the bytes handed to the underlying sink are: each line of the concatenated message, with a dot prepended if it starts with a dot, each ended by CRLF (CRLF added after a final unterminated line), followed by . CRLF.", "quantifier": "every message, every way to cut it into send() calls (empty pieces included)", "why_tests_cant": "escaping depends on state carried across calls; every cut position matters", "anchors": ["smtp-message/src/data/sink.rs: DataSink::new, send, end"]}
{"id": "C07", "title": "DataSink and DataStream are inverse", "statement": "Sending a message through a DataSink in any pieces, carrying the bytes over any packetisation, followed by any further bytes, and reading it with a DataStream gives back the message, with CRLF appended when it is non-empty and does not end in CRLF; complete() returns Ok and the further bytes are still in the source.", "quantifier": "every message, every chunking on the sending side, every packetisation and readiness schedule on the receiving side, every continuation", "why_tests_cant": "quickcheck samples this; the claim is for all messages and chunkings", "anchors": ["smtp-message/src/data/sink.rs: send, end", "smtp-message/src/data/stream.rs: poll_next, complete", "smtp-message/src/data/mod.rs: data_stream_and_sink_are_compatible"]}
{"id": "C08", "title": "A message cannot end its own transmission", "statement": "As long as end() was not called, the bytes a DataSink has produced never make a receiver report the DATA as complete, whatever the message content, however much of it reaches the receiver, and even if the underlying sink starts failing at any point, before or after taking an item. Whatever end() returns, a receiver that reports the DATA as complete has the whole message; a failing end() may or may not have completed it. (A caller that ignores an error of send() and goes on can make the message end early: witness.)", "quantifier": "every message and chunking, every failure point of the underlying sink (before or after taking the item), every part of the bytes that reaches the receiver", "why_tests_cant": "smuggling is about the one content nobody tried", "anchors": ["smtp-message/src/data/sink.rs: send", "smtp-message/src/data/stream.rs: complete"]}
{"id": "C09", "title": "complete() panics exactly on an unfinished stream", "statement": "complete() returns (without panic) exactly when the last poll reported the end of the stream or the terminator was already consumed; the internal push-back of over-read bytes can never fail. It returns at most once: was_completed() is false before and true after it, and a second call panics.", "quantifier": "every sequence of polls on a DataStream built over a Prependable in any state, followed by calls of complete() and was_completed()", "why_tests_cant": "panic freedom quantifies over all reachable states", "anchors": ["smtp-message/src/data/stream.rs: complete", "smtp-message/src/streamext/prependable.rs: prepend"]}
{"id": "C10", "title": "next_crlf_line returns exactly the bytes up to the first CRLF", "statement": "If the unread bytes contain CRLF, the line returned is the shortest prefix that ends in CRLF and the stream then holds exactly the remaining bytes; otherwise None is returned and the bytes are kept in the stream. It never panics.", "quantifier": "every unread byte sequence, packetisation, readiness schedule and pushed-back item", "why_tests_cant": "CR and LF may be in different packets; all splits matter", "anchors": ["smtp-server/src/crlflines.rs: next_crlf_line", "smtp-message/src/streamext/prependable.rs: prepend"]}
{"id": "C11", "title": "Line splitting is lossless and packetisation-independent over a whole stream", "statement": "Calling next_crlf_line repeatedly returns the unique decomposition of the byte sequence into CRLF-terminated lines, and the unterminated tail remains in the stream.", "quantifier": "every byte sequence and packetisation, any number of calls", "why_tests_cant": "histories of unbounded length", "anchors": ["smtp-server/src/crlflines.rs: next_crlf_line"]}
{"id": "C12", "title": "Prependable is a stream with one push-back slot", "statement": "prepend succeeds exactly when nothing is pushed back; a pushed-back item is the next item, returned once, without polling the inner stream; otherwise items come from the inner stream in order.", "quantifier": "every history of prepend and poll operations", "why_tests_cant": "histories of unbounded length", "anchors": ["smtp-message/src/streamext/prependable.rs: Prependable::new, prepend, poll_next"]}
{"id": "C13", "title": "Command::parse accepts exactly the documented command grammar", "statement": "Command::parse returns Ok(c) exactly when the input is a sentence of the SMTP command grammar (case-insensitive verb, its arguments, CRLF at the very end) whose arguments are those of c.", "quantifier": "every byte string and every command value", "why_tests_cant": "a parser built from backtracking combinators can accept or reject wrongly on any of infinitely many inputs", "anchors": ["smtp-message/src/command.rs: Command::parse, command", "smtp-message/src/*/mod.rs: command_*_args", "smtp-message/src/parseresult.rs: nom_to_result"]}
{"id": "C14", "title": "A complete line is always decided", "statement": "For an input ending in CRLF, Command::parse never answers IncompleteString: it returns Ok, ParseError or DidNotConsumeEverything; and it terminates on every input.", "quantifier": "every byte string ending in CRLF (respectively every byte string)", "why_tests_cant": "all inputs", "anchors": ["smtp-message/src/command.rs: Command::parse", "smtp-message/src/parseresult.rs: nom_to_result"]}
{"id": "C15", "title": "Commands survive a send/parse round trip", "statement": "For every command value with well-formed arguments, parsing what send_to writes gives the same command (parameters equal as maps, whatever the iteration order of the map).", "quantifier": "every command value with well-formed arguments, every iteration order of the parameter map", "why_tests_cant": "unbounded argument space", "anchors": ["smtp-message/src/command.rs: Command::send_to, Command::parse", "smtp-message/src/parameters.rs: Parameters::send_to"]}
{"id": "C16", "title": "Verbs are case-insensitive and nothing else is folded", "statement": "Changing the case of letters of the verb (including FROM: and TO:) of an accepted line does not change the parse result; argument bytes are returned verbatim.", "quantifier": "every accepted line and every recasing of its verb", "why_tests_cant": "2^n recasings of every line", "anchors": ["smtp-message/src/*/mod.rs: tag_no_case!"]}
{"id": "C17", "title": "The verb determines the command", "statement": "Two inputs accepted by Command::parse whose first four non-blank bytes agree up to case yield commands of the same kind; no input is accepted as two different commands.", "quantifier": "every pair of accepted inputs", "why_tests_cant": "ordered choice over eleven alternatives", "anchors": ["smtp-message/src/command.rs: command"]}
{"id": "C18", "title": "A sent command is one line, exactly when its argument has no CRLF", "statement": "The bytes written by send_to for a NOOP/HELP/VRFY/EXPN command contain CRLF only at their end exactly when the argument contains no CRLF; for the other commands with well-formed arguments there is always exactly one CRLF, at the end. (The constructors do not check this: injection witness.)", "quantifier": "every command value", "why_tests_cant": "injection is a property of all argument values", "anchors": ["smtp-message/src/command.rs: send_to", "smtp-message/src/noop/mod.rs", "smtp-message/src/vrfy/mod.rs"]}
{"id": "C19", "title": "E-mail addresses: grammar and round trip", "statement": "Email::parse accepts exactly local-part [@ domain] with the local part a dot-string or quoted-string; parsing what send_to writes for a well-formed address returns that address; re-sending a parsed address whose domain is a host name reproduces the input bytes.", "quantifier": "every byte string and every address value", "why_tests_cant": "unbounded inputs", "anchors": ["smtp-message/src/email.rs: Email::parse, send_to, email, quoted_string, dot_string"]}
{"id": "C20", "title": "localpart() never panics on a parsed address and is exact unquoting", "statement": "For every address obtained by parsing, localpart() returns normally; it is the raw local part if unquoted, and otherwise the content between the quotes with each backslash pair replaced by its second byte. Any string of printable characters has a quoted form that unquotes to it. (On addresses built by Email::new it panics exactly on the empty local part and on quoted ones whose unescaped content does not end with a quote.)", "quantifier": "every parsed address; every constructed address", "why_tests_cant": "panic freedom for all inputs", "anchors": ["smtp-message/src/email.rs: Email::localpart, raw_localpart"]}
{"id": "C21", "title": "Source routes are ignored", "statement": "Adding a source route @a,@b: in front of the address of an accepted MAIL or RCPT line does not change the command parsed; bracketed and unbracketed forms of the same path are equivalent.", "quantifier": "every route, address and parameter list", "why_tests_cant": "unbounded lists", "anchors": ["smtp-message/src/email.rs: address_in_path, address_in_maybe_bracketed_path"]}
{"id": "C22", "title": "Parameters parse to a last-wins map and are order-insensitive on sending", "statement": "The parameter map of an accepted MAIL/RCPT line maps each key to the value of its last occurrence; sending a map in any iteration order and parsing it returns an equal map.", "quantifier": "every parameter list and every iteration order", "why_tests_cant": "n! orders, unbounded lists", "anchors": ["smtp-message/src/parameters.rs: parse_parameters, send_to"]}
{"id": "C23", "title": "Domains: grammar and round trip", "statement": "Domain parsing accepts exactly dot-separated labels (alphanumeric start, then alphanumerics and dashes), [IPv4] and [IPv6:...] literals; parsing what send_to writes for a well-formed domain returns it.", "quantifier": "every byte string, every domain value", "why_tests_cant": "unbounded inputs", "anchors": ["smtp-message/src/domain.rs: hostname, Domain::parse, send_to"]}
{"id": "C24", "title": "Address literals round-trip for every IP address", "statement": "For every IPv4 and every IPv6 address, parsing the literal written by send_to returns the same address.", "quantifier": "all 2^32 IPv4 and 2^128 IPv6 addresses", "why_tests_cant": "2^128 values, zero-compression and embedded-IPv4 display forms", "anchors": ["smtp-message/src/domain.rs: hostname, send_to (std Ipv4Addr/Ipv6Addr FromStr and Display)"]}
{"id": "C25", "title": "ReplyLine::build accepts exactly valid reply lines", "statement": "build returns Ok exactly when the text has at most 506 bytes, all of them tab or printable ASCII; otherwise it reports the length, or the first offending byte and its position.", "quantifier": "every code, flag and text", "why_tests_cant": "all texts", "anchors": ["smtp-message/src/reply.rs: ReplyLine::build"]}
{"id": "C26", "title": "Reply lines survive a send/parse round trip and fit in 512 bytes", "statement": "For every built reply line and every code below 1000, send_to writes exactly byte_len() bytes (so at most 512), ending in CRLF with no other CR or LF, and parsing them returns the same code, flag and text.", "quantifier": "every code below 1000, flag and accepted text", "why_tests_cant": "all texts and codes", "anchors": ["smtp-message/src/reply.rs: send_to, byte_len, parse, reply"]}
{"id": "C27", "title": "Reply parsing is exact", "statement": "ReplyLine::parse returns Ok exactly on three bytes that read as a number (digits, or a plus sign and two digits), a dash or space, bytes up to the first CRLF, which must end the input; the result carries that number, flag and text.", "quantifier": "every byte string", "why_tests_cant": "all inputs", "anchors": ["smtp-message/src/reply.rs: reply, parse"]}
{"id": "C28", "title": "byte_chunks is a partition", "statement": "For a chunk size n > 0 such that len + n - 1 does not overflow usize, the chunks concatenate to the string, each has between 1 and n bytes, all but the last have exactly n. (With overflow the wrapped computation loses data: witness; n = 0 panics.)", "quantifier": "every string and chunk size, including overflowing ones", "why_tests_cant": "all sizes, arithmetic wrap-around", "anchors": ["smtp-message/src/smtpstring.rs: byte_chunks"]}
{"id": "C29", "title": "A reply is sent as one well-formed multi-line reply", "statement": "send_reply with a text of printable bytes writes ceil(len/506) lines carrying the same code, all but the last marked as continued, whose texts concatenate to the text; it panics exactly if the text has a disallowed byte; with an empty text it writes nothing at all.", "quantifier": "every code and text, every writer failure point", "why_tests_cant": "all texts; failure points", "anchors": ["smtp-server/src/sendreply.rs: send_reply", "smtp-message/src/smtpstring.rs: byte_chunks"]}
{"id": "C30", "title": "A session is independent of packetisation", "statement": "interact produces the same bytes on the outgoing sink, the same sequence of configuration callbacks with the same arguments and mail contents, and the same result, for any two packetisations/readiness schedules of the same incoming bytes.", "quantifier": "every configuration whose mail handler looks only at the concatenated data, every byte sequence, every pair of packetisations", "why_tests_cant": "exponentially many packetisations of unbounded sessions", "anchors": ["smtp-server/src/interact.rs: interact, handle_line", "smtp-server/src/crlflines.rs: next_crlf_line", "smtp-message/src/data/stream.rs: poll_next"]}
{"id": "C31", "title": "handle_mail gets exactly the envelope that was accepted", "statement": "Whenever handle_mail is called, its metadata is the sender as accepted (and possibly rewritten) by filter_from and the recipients accepted by filter_to since then, in order, as rewritten; there is at least one recipient; and filter_data accepted. (If filters rewrite the metadata they are shown, it is what their results leave.)", "quantifier": "every configuration, every incoming byte sequence, every prefix of the session", "why_tests_cant": "histories of unbounded length", "anchors": ["smtp-server/src/interact.rs: handle_line"]}
{"id": "C32", "title": "Commands out of order are refused and change nothing", "statement": "A second MAIL during a transaction, RCPT or DATA before MAIL, and DATA before an accepted RCPT get the configured bad-sequence reply, call no configuration filter, and leave the transaction unchanged.", "quantifier": "every session state and line", "why_tests_cant": "every history", "anchors": ["smtp-server/src/interact.rs: handle_line", "smtp-server/src/config.rs: already_in_mail, rcpt_before_mail, data_before_mail, data_before_rcpt"]}
{"id": "C33", "title": "One reply per command, in order", "statement": "The outgoing bytes are the banner followed by, for each CRLF-terminated command line in order, one reply (DATA that is accepted gets two, the go-ahead before the content is read and the verdict after it); an unterminated last line gets none.", "quantifier": "every configuration, every incoming byte sequence and packetisation", "why_tests_cant": "unbounded sessions", "anchors": ["smtp-server/src/interact.rs: interact, handle_line"]}
{"id": "C34", "title": "Rejections and their effect on the transaction", "statement": "A rejected MAIL leaves no transaction open, a rejected RCPT keeps the transaction with the same recipients (as left by the filter), a DATA rejected by filter_data keeps it, and after handle_mail the transaction is closed whatever the verdict; the reply is the code and text of the refusal.", "quantifier": "every configuration and state", "why_tests_cant": "all histories", "anchors": ["smtp-server/src/interact.rs: handle_line"]}
{"id": "C35", "title": "Sessions do not panic under a lawful configuration", "statement": "If all reply texts of the configuration are printable and the mail handler reads its stream to the end and calls complete, then interact returns Ok or the writer's error, for every input; no assertion, unwrap or index fails.", "quantifier": "every lawful configuration, every incoming byte sequence, packetisation, and writer failure", "why_tests_cant": "panic freedom on all inputs", "anchors": ["smtp-server/src/interact.rs: interact", "smtp-server/src/sendreply.rs: send_reply", "smtp-message/src/data/stream.rs: complete"]}
{"id": "C36", "title": "A handler that does not complete the stream aborts the session", "statement": "If handle_mail returns without having called complete successfully or unsuccessfully, interact panics, sends no verdict, and processes no further command.", "quantifier": "every configuration and session", "why_tests_cant": "all histories", "anchors": ["smtp-server/src/interact.rs: handle_line assert!(data_stream.was_completed())"]}
{"id": "C37", "title": "Writer failure stops the session", "statement": "If the outgoing sink refuses a reply line, interact returns its error, no later line is written and no later configuration callback is made; what was written is a prefix of what would have been written.", "quantifier": "every configuration, every input, every failure point", "why_tests_cant": "crash points", "anchors": ["smtp-server/src/interact.rs: interact, handle_line (?)", "smtp-server/src/sendreply.rs: send_reply"]}
{"id": "C38", "title": "Message content is never taken for commands, nor commands for content", "statement": "The bytes between the go-ahead of a DATA command and the terminator are given to handle_mail (unescaped) and are not interpreted as commands; the bytes after the terminator are interpreted as commands and not given to handle_mail.", "quantifier": "every session and packetisation", "why_tests_cant": "smuggling: all inputs", "anchors": ["smtp-server/src/interact.rs: handle_line Data", "smtp-message/src/data/stream.rs: complete", "smtp-server/src/crlflines.rs: next_crlf_line"]}
{"id": "C39", "title": "The incoming stream is not polled after its end, except after an interrupted DATA", "statement": "interact polls the incoming stream at most once after it returned None, and does so only if the stream ended inside DATA content. (So the stronger property that a terminated stream is never polled again is false: witness.)", "quantifier": "every configuration whose mail handler asks its stream for nothing more once it was told that it is over or has called complete (it may read everything, a part or nothing, poll, complete too early or never), every input, packetisation and writer", "why_tests_cant": "all executions", "anchors": ["smtp-server/src/crlflines.rs: TODO (A)", "smtp-server/src/interact.rs: interact"]}
{"id": "C40", "title": "End-to-end delivery", "statement": "A client that sends MAIL, RCPT for each recipient, DATA, then a message through DataSink, to a server whose configuration accepts, over any packetisation, causes exactly one handle_mail call, with exactly that sender, those recipients in order, and that message (CRLF-normalised at its end), and receives exactly the expected replies.", "quantifier": "every well-formed sender, non-empty recipient list and message; every chunking and packetisation", "why_tests_cant": "combination of all layers; unbounded inputs", "anchors": ["smtp-server/src/interact.rs: interact", "smtp-message/src/command.rs: send_to, parse", "smtp-message/src/data/sink.rs: DataSink", "smtp-message/src/data/stream.rs: DataStream"]}
{"id": "C41", "title": "Unimplemented and unknown commands have no effect", "statement": "DATA/MAIL/RCPT excepted, every parsed command gets the command_unimplemented reply and every unparsable line the command_unrecognized reply; neither touches the transaction or calls a filter; in particular QUIT does not end the session and RSET does not abort the transaction.", "quantifier": "every state and line", "why_tests_cant": "all lines", "anchors": ["smtp-server/src/interact.rs: handle_line Ok(_), Err(_)"]}
{"id": "C42", "title": "The queue never loses a mail", "statement": "At every point of every execution, including after any number of crashes and restarts and with storage operations failing at any point, every mail ever enqueued is still in storage (queued or in flight) or was accepted by the transport.", "quantifier": "every interleaving of tasks, every crash point, every storage/transport failure pattern", "why_tests_cant": "schedules and crash points", "anchors": ["smtp-queue/src/run.rs: run", "smtp-queue/src/send_queued_mail.rs: send_queued_mail", "smtp-queue/src/storage.rs: Storage"]}
{"id": "C43", "title": "A mail is removed only after the transport accepted it", "statement": "send_done is called for a mail only after transport.send returned Ok for it in the same attempt; a failing attempt puts the mail back in the queue and schedules another attempt.", "quantifier": "every interleaving and failure pattern", "why_tests_cant": "schedules", "anchors": ["smtp-queue/src/send_queued_mail.rs: send_queued_mail"]}
{"id": "C44", "title": "No two concurrent deliveries of one mail, if deliveries are quick and startup is quick", "statement": "If every attempt takes less than D seconds, the in-flight scan finishes within L seconds of startup and D + L <= 3600, no two deliveries of the same mail are ever in progress at once in one instance. Without the bound on the scan (D < 3600 alone) this is false: witness schedule.", "quantifier": "every timed interleaving", "why_tests_cant": "schedules and timing", "anchors": ["smtp-queue/src/run.rs: Delay::new(startup + 3600s), find_inflight"]}
{"id": "C45", "title": "Every mail known at startup stays covered by a task", "statement": "If no storage operation fails and no instance crashes after a startup, then at every later point, whatever the transport answered so far, every mail that was in storage at the startup is removed already or can still be delivered by the tasks that are running (some continuation without restart delivers and removes it). Mails enqueued after the startup scan, or left in flight by a failing operation, are never touched again until the next startup: witnesses.", "quantifier": "every interleaving and transport failure pattern", "why_tests_cant": "schedules", "anchors": ["smtp-queue/src/run.rs: run", "smtp-queue/src/send_queued_mail.rs"]}
{"id": "C46", "title": "ByteSlice slicing is exact inside the slice", "statement": "For a valid ByteSlice and a range inside its length, slice denotes exactly that sub-range, promote/demote/len/compare/position/find agree with the denoted bytes. The bound check is too weak: a range beyond the slice but below its end offset is accepted and exposes bytes outside the slice: witness.", "quantifier": "every buffer, slice and range", "why_tests_cant": "all index combinations", "anchors": ["smtp-message/src/byteslice.rs: Slice impls, promote, demote, len"]}
{"id": "C47", "title": "A connection cut anywhere delivers only the mails sent completely", "statement": "If only a prefix of the bytes of a client (commands and mails, as in C40) reaches an accepting server, the session still ends without error, handle_mail is called with a successful complete() exactly for the mails whose bytes all arrived, in order and unaltered, and for the mail being sent when the connection was cut it is called at most once, with a prefix of its text and a failing complete().", "quantifier": "every list of mails, every cut point, every packetisation", "why_tests_cant": "every byte position of every session is a cut point, and so are all positions inside CRLF and end-of-data sequences", "anchors": ["smtp-server/src/interact.rs: interact, handle_line", "smtp-message/src/data/stream.rs: DataStream", "smtp-message/src/data/sink.rs: DataSink"]}
{"id": "C48", "title": "A refused mail is retried at once and without limit", "statement": "From any state in which an attempt for a queued mail is about to start, for every n there is an execution in which the transport refuses the mail n times in a row at one and the same instant and an (n+1)th attempt is about to start: there is no back-off, no retry limit, no bounce.", "quantifier": "every state, every number of refusals", "why_tests_cant": "unbounded number of retries, all states", "anchors": ["smtp-queue/src/send_queued_mail.rs: send_queued_mail (Err branch)"]}
{"id": "C49", "title": "Without failures every mail is accepted by the transport at most once", "statement": "If no storage operation fails, no instance crashes, attempts take less than D and startup scans at most L with D + L <= 3600 s, then the transport accepts each mail at most once, with any number of instances on the same storage. With a crash between acceptance and send_done a mail is delivered twice: witness.", "quantifier": "every timed interleaving of any number of instances", "why_tests_cant": "schedules and timing", "anchors": ["smtp-queue/src/run.rs: run", "smtp-queue/src/send_queued_mail.rs: send_queued_mail"]}
{"id": "C50", "title": "The data fuzz target's assertion holds for every input", "statement": "For every list of packets, reading DataStream to its end, calling complete() and reading the rest gives exactly the result of the project's naive decoder in fuzz_data_parser.rs (None for an unterminated message, otherwise text and remaining bytes), and neither side panics.", "quantifier": "all lists of packets, of any number and sizes, including empty packets", "why_tests_cant": "The fuzzer samples inputs; equality must hold for every byte sequence and every way to cut it.", "anchors": ["smtp-message/fuzz/fuzz_targets/fuzz_data_parser.rs", "smtp-message/src/data/stream.rs: DataStream::poll_next, DataStream::complete"]}
{"id": "C51", "title": "The interact, command and reply fuzz targets never crash", "statement": "For every list of packets, a session with the configuration of fuzz_interact.rs (filters looking at the unquoted local part, handler refusing more than three recipients) ends without a panic, neither in the crate nor in the filters' calls of localpart(); and Command::parse and ReplyLine::parse give an answer for every byte string.", "quantifier": "all lists of packets; all byte strings", "why_tests_cant": "Absence of crashes must hold for every byte sequence an attacker may send.", "anchors": ["smtp-server/fuzz/fuzz_targets/fuzz_interact.rs", "smtp-message/fuzz/fuzz_targets/fuzz_command_parser.rs", "smtp-message/fuzz/fuzz_targets/fuzz_reply_parser.rs", "smtp-server/src/interact.rs: interact", "smtp-message/src/email.rs: Email::localpart"]}
{"id": "C52", "title": "Answers are not delayed by what the client may send next", "statement": "interact asks the connection for more input only when it needs it: a command line is handled as soon as its CRLF has arrived, a message is completed as soon as its end line has arrived, and everything a client has sent as whole commands and messages is answered, with every reply handed to the writer and the writer flushed, before the server waits for further input - whatever arrives later, if anything. The same holds (go-ahead flushed) when handle_mail starts to read.", "quantifier": "all configurations whose handlers ask their stream for nothing after its end or after complete, writers, sequences of packets and pendings, and all continuations of the input", "why_tests_cant": "A test feeds a finite stream that ends; a peer that waits for the answer before sending more would deadlock with a server that reads ahead or does not flush, for some cut of the input.", "anchors": ["smtp-server/src/interact.rs: interact, handle_line", "smtp-server/src/crlflines.rs: next_crlf_line", "smtp-server/src/sendreply.rs: send_reply", "smtp-message/src/data/stream.rs: poll_next, complete"]}
{"id": "C53", "title": "A waiting DataStream has given out all it can", "statement": "Whenever polling a DataStream answers Pending, the items given so far are exactly the unescaped text of the bytes taken so far, except that a last unterminated line '.' or '.<CR>' is kept back because it may become the end of the message; no byte beyond is taken.", "quantifier": "all byte sequences, packets, pendings and numbers of polls", "why_tests_cant": "It is a statement about every intermediate state of a poll-based state machine for every cut of the input.", "anchors": ["smtp-message/src/data/stream.rs: poll_next"]}
{"id": "C54", "title": "On a fair schedule every mail known at startup is delivered", "statement": "Take any history, crashes and failures included, then a startup; let from then on no storage or timer operation fail, no instance crash, and, after finitely many further startups, none be started. If every operation that can be answered is answered at last, time goes on and listings end, then a mail in storage at the startup is accepted by the transport and removed for good, or refused by the transport more often than any number; in particular it is delivered if the transport refuses it finitely often.", "quantifier": "every history before the startup, every infinite fair execution after it, every transport behaviour", "why_tests_cant": "a statement about infinite executions and all schedules", "anchors": ["smtp-queue/src/run.rs: run", "smtp-queue/src/send_queued_mail.rs: send_queued_mail"]}
{"id": "C55", "title": "Parsing a slice never panics and depends on its bytes only", "statement": "Command::parse, ReplyLine::parse, Domain::parse(_slice) and Email::parse(_slice) never panic on any input - no slice or index out of range, no promote of a bad slice, no failed assertion of ReplyCode::custom, no failure on bytes that are not UTF-8 - and what they return depends only on the bytes the ByteSlice shows, not on the buffer around it or its position. ByteSlice::into_utf8 succeeds exactly on encodings of sequences of Unicode scalar values.", "quantifier": "all byte strings; for Domain::parse and Email::parse all slices of all buffers", "why_tests_cant": "The range check of ByteSlice::slice is too weak, so that each use of it must be shown harmless on every input; only fuzzing could be tried.", "anchors": ["smtp-message/src/byteslice.rs: ByteSlice", "smtp-message/src/parseresult.rs: nom_to_result", "smtp-message/src/command.rs: Command::parse", "smtp-message/src/reply.rs: ReplyLine::parse", "smtp-message/src/domain.rs: Domain::parse, Domain::parse_slice", "smtp-message/src/email.rs: Email::parse, Email::parse_slice"]}
{"id": "C56", "title": "A server that takes every default is lawful and says exactly these bytes", "statement": "A configuration that implements only the required methods of Config (filters, handle_mail, hostname), whose own refusals are printable, whose handler reads its stream to the end and completes it, and whose hostname is printable and at most 492 bytes long, never makes a session panic. The session begins with the single line '220 <hostname> Service ready'; every later line is '250 Okay', '354 Start mail input; end with <CRLF>.<CRLF>', '503 Bad sequence of commands', '502 Command not implemented' or '500 Command not recognized', or belongs to the refusal the user's code has just asked for.", "quantifier": "all filters, handlers and hostnames within these rules, all incoming bytes and packetisations, all writers", "why_tests_cant": "The repository's tests compare a few sessions; that nothing else is ever said, and that no default reply can break the reply builder, is a statement about every session.", "anchors": ["smtp-server/src/config.rs: Config (default methods)", "smtp-server/src/interact.rs: interact", "smtp-server/src/sendreply.rs: send_reply"]}
{"id": "C57", "title": "send_to on any writer sends the text or a beginning of it, and reports which", "statement": "send_to of commands, domains, addresses, parameters and reply lines, on any io::Write that may take less than it is given, be interrupted or fail at any call: what the writer has taken is a beginning of the wire text, and it is all of it exactly if send_to returned Ok; it does not panic on a writer that never claims more than it was given, and it returns Ok on a writer that always takes something. SmtpString::from_sendable returns the wire text. A buffer of fixed capacity takes a reply line exactly if it has room for it, and the capacity that interact reserves is enough.", "quantifier": "all values, all writers (arbitrary state machines, any failure point), all ways of cutting formatted addresses into pieces", "why_tests_cant": "Tests write to a Vec, which never fails or writes short; failure points and short writes are unbounded.", "anchors": ["smtp-message/src/command.rs: Command::send_to", "smtp-message/src/sendable.rs: Sendable", "smtp-message/src/email.rs: send_to", "smtp-message/src/domain.rs: send_to", "smtp-message/src/parameters.rs: send_to", "smtp-message/src/reply.rs: ReplyLine::send_to", "smtp-message/src/smtpstring.rs: SmtpString::from_sendable", "smtp-server/src/interact.rs: interact (the closure given to with)"]}
{"id": "C58", "title": "Every command and reply line of RFC 5321 is understood, and sent as such", "statement": "A command line that RFC 5321 (4.1.1-4.1.3) allows - any case of the verb, source routes, quoted local parts, IPv4 and IPv6 literals, <>, <Postmaster>, parameters without repeated keyword, trailing blanks - is parsed, and as the command the RFC means by it; a command that has an RFC line is sent as an RFC line with that meaning (except that HELP and NOOP without argument are sent with a trailing space). A reply line of the RFC is parsed as what it means; a reply line built with a code of the RFC is sent as an RFC line. Exceptions, shown by witnesses: general address literals and a lower-case 'ipv6:' tag are refused, and so is a reply line with neither text nor space.", "quantifier": "all command lines and reply lines of the RFC's grammar, all commands they mean", "why_tests_cant": "The repository's tests parse a few dozen literals; the RFC's grammar is infinite and recursive (routes, quoted strings, parameters, address literals).", "anchors": ["smtp-message/src/command.rs: Command::parse, Command::send_to", "smtp-message/src/email.rs", "smtp-message/src/domain.rs", "smtp-message/src/parameters.rs", "smtp-message/src/reply.rs: ReplyLine::parse, ReplyLine::send_to"]}
{"id": "C59", "title": "The outgoing sink is used as the Sink contract demands and its errors are reported", "statement": "In every session, with every configuration and sink: start_send is called only directly after a poll_ready that answered Ok, each such answer is used for at most one start_send, no method of the sink is called after one of them answered an error, and interact returns the sink's error exactly if poll_ready, start_send or poll_flush answered one.", "quantifier": "all configurations, incoming bytes and packetisations, all sinks (arbitrary state machines, failing or answering Pending at any call), all reply lengths, every moment of the session", "why_tests_cant": "The repository's tests use one sink that never fails; a sink may misbehave or panic on any violation, at any of unboundedly many calls.", "anchors": ["smtp-server/src/interact.rs: interact", "smtp-server/src/sendreply.rs: send_reply"]}
{"id": "C60", "title": "Mails found in flight are left alone for an hour", "statement": "An instance calls cancel_found_inflight for a mail only at least 3600 seconds after it was started. A mail in flight stops being in flight only by send_done or send_cancel of the very task whose send_start put it there, or by such a recovery: starting another instance on the same storage does not disturb deliveries for an hour.", "quantifier": "every history, every interleaving, any number of instances, crashes and failures included", "why_tests_cant": "ranges over all interleavings of all instances, crash points and clock readings", "anchors": ["smtp-queue/src/run.rs: run", "smtp-queue/src/send_queued_mail.rs: send_queued_mail"]}
{"id": "C61", "title": "Failures that concern other mails do not delay a mail for ever", "statement": "C54 still holds for a mail if, after the startup, storage operations concerning any other mails fail in any pattern, with or without effect: on a fair schedule the mail is accepted by the transport and removed for good, or refused more often than any number.", "quantifier": "every history before the startup, every infinite fair execution after it, every failure pattern of operations on other mails, every transport behaviour", "why_tests_cant": "a liveness property over infinite schedules with arbitrary failures", "anchors": ["smtp-queue/src/run.rs: run", "smtp-queue/src/send_queued_mail.rs: send_queued_mail"]}
{"id": "C62", "title": "The executor and the moments at which things are not ready have no influence on a session", "statement": "For every configuration, sink and incoming stream, and however often and whenever the stream, the sink or the futures of the configuration answer Pending - the sink being any state machine, which may change its state while it is not ready - polling the future returned by interact gives the result of the uninterrupted session with a writer that gives the sink's final answers at once, and leaves the same variables, writes and calls. It takes at most one poll more than there were Pending answers - exactly one, if the mail handler awaits what it reads, as opposed to going on when its stream is not ready - so it ends unless one of them answers Pending for ever; a number of polls known beforehand suffices if the sink's Pending answers are bounded.", "quantifier": "every configuration, sink (any state machine), incoming stream and schedule of Pending answers", "why_tests_cant": "ranges over all schedules of readiness, handlers, packetings and inputs", "anchors": ["smtp-server/src/interact.rs: interact, handle_line", "smtp-server/src/crlflines.rs: next_crlf_line", "smtp-server/src/sendreply.rs: send_reply", "smtp-message/src/data/stream.rs: DataStream::poll_next", "smtp-message/src/streamext/prependable.rs: Prependable::poll_next"]}
{"id": "C63", "title": "A session waits only for what will wake it, and never for the client while keeping a reply back", "statement": "For mail handlers that await what they read (for others see C70): a poll of the future returned by interact answers Pending only if the stream, the writer or a future of the configuration it asked answered Pending during that poll, and then it asks nothing further of that kind; if everything is ready, the first poll finishes the session. Whenever it waits for the incoming stream every reply was handed to the writer and the writer flushed.", "quantifier": "every configuration, sink (any state machine), incoming stream, schedule and number of polls", "why_tests_cant": "lost wake-ups and withheld replies depend on schedules that tests do not control", "anchors": ["smtp-server/src/interact.rs: interact, handle_line", "smtp-server/src/crlflines.rs: next_crlf_line", "smtp-server/src/sendreply.rs: send_reply", "smtp-message/src/data/stream.rs: DataStream::poll_next"]}
{"id": "C64", "title": "A session that is dropped has done a beginning of the session", "statement": "If the future returned by interact is dropped after any number of polls (timeout, shutdown), what was written, the calls of the configuration with their arguments and results, and the packets taken from the stream are, in order, a beginning of those of the session run to its end, whatever the sink would have answered from then on.", "quantifier": "every configuration, sink (any state machine), incoming stream, schedule and moment of the drop", "why_tests_cant": "ranges over all cancellation points of all sessions", "anchors": ["smtp-server/src/interact.rs: interact, handle_line", "smtp-server/src/sendreply.rs: send_reply"]}
{"id": "C65", "title": "Memory: a message needs two bytes besides a packet, a session the rest of one packet, but a line may grow without limit", "statement": "If no packet of the incoming stream is longer than B: a DataStream never buffers more than B+2 bytes, at most 2 while it waits, and hands out items of at most B+2 bytes, however long the message; behind a line or a message at most the rest of one packet is put back; when a session waits for a line it keeps no more than that, whatever the client sent and the handlers did. A line however is collected whole: for every n there are one-byte packets that make next_crlf_line collect n bytes.", "quantifier": "every packet size, stream, message, configuration, handler and number of polls or lines", "why_tests_cant": "a bound over all streams and histories; tests see finite messages", "anchors": ["smtp-message/src/data/stream.rs: DataStream::poll_next, complete", "smtp-server/src/crlflines.rs: next_crlf_line", "smtp-server/src/interact.rs: interact"]}
{"id": "C66", "title": "Sending a message works under every schedule of the sink; a dropped send never looks complete, but the sink must not be used after it", "statement": "Sending a message through a DataSink (a send per piece, then end), polled any number of times against any Sink: the items the underlying sink has taken are at every moment a beginning of the dot-stuffed encoding of the message, and all of it when the task returns Ok. A sequence of sends polled any number of times and then dropped has done what the uninterrupted code does with some answers of the sink, the drop counting as an error; the receiver of any beginning of what was taken never takes it for a complete message and has got a beginning of the text. If however a pending send was dropped and end is called on the same DataSink, the receiver can see a complete message of different content, followed by bytes it reads as a command.", "quantifier": "every sink (any state machine for poll_ready, start_send, poll_flush), message, division into pieces, number of polls and moment of the drop", "why_tests_cant": "ranges over all schedules, cancellation points and sinks; the tests use a Vec, which is always ready", "anchors": ["smtp-message/src/data/sink.rs: DataSink::send, DataSink::end"]}
{"id": "C67", "title": "What the errors of the parsers tell", "statement": "DidNotConsumeEverything(n) from Command::parse (ReplyLine::parse) means exactly that the input is a command (a reply line) followed by n > 0 more bytes, so the first command can be cut off and parsed by itself; no command is the beginning of another one. On input that ends in CRLF, ParseError means exactly that the input does not begin with a command (reply line). For Email and Domain, DidNotConsumeEverything(n) means that all but the last n bytes are an address (a domain). On input that does not end in CRLF, ParseError does not mean that no continuation is a command.", "quantifier": "every byte string", "why_tests_cant": "a reader of a pipelined buffer relies on the meaning of the error for every input", "anchors": ["smtp-message/src/parseresult.rs: nom_to_result, ParseError", "smtp-message/src/command.rs: Command::parse", "smtp-message/src/reply.rs: ReplyLine::parse", "smtp-message/src/email.rs: Email::parse", "smtp-message/src/domain.rs: Domain::parse"]}
{"id": "C68", "title": "What the result of the futures of the queue tells", "statement": "The future of run, and of every task it starts, completes with Err exactly if one of its own storage operations, listings or timers failed (a refusal by the transport is no failure), and the task does nothing after the failure. If the future of run completes with Ok, a task has been started for every mail stored when it began, unless somebody did something with that mail meanwhile.", "quantifier": "every history, every interleaving, any number of instances, crashes, failures with or without effect, every transport behaviour", "why_tests_cant": "ranges over all executions; smtp-queue has no tests at all", "anchors": ["smtp-queue/src/run.rs: run", "smtp-queue/src/send_queued_mail.rs: send_queued_mail"]}
{"id": "C69", "title": "Reply codes are the numbers the client reads", "statement": "The named reply codes are those of RFC 5321 (4.2.3), and every line built with one of them is a reply line of the RFC. ReplyCode::custom makes a code of every number below 1000 and panics for all others; a line built with it begins with the three decimal digits of that number (leading zeros included) and of no other. Custom codes need not be codes of the RFC (witness: 099).", "quantifier": "every number given to custom, every named code, flag and text", "why_tests_cant": "the numbers and texts are too many to try; a wrong digit or constant shows only for the code concerned", "anchors": ["smtp-message/src/reply.rs: ReplyCode, ReplyCode::custom, ReplyLine::build, ReplyLine::send_to"]}
{"id": "C70", "title": "Any user code: whatever the futures of the configuration do, a session is one whose configuration answers at once", "statement": "The futures of the configuration and of the mail handler may be any state machines: they may suspend themselves at any time, change their own state, the configuration and the connection metadata while they do, poll the mail's stream and go on if it is not ready, never finish, or panic. At every moment of every such session, with any sink, what was written and which calls were made with which arguments and results is a beginning of a session in which the same answers are given at once, and all of it, with the same result and variables, when the session is over. The answers are the ones the user's futures give: they are run one after the other, each from its start to its end, on the configuration and metadata the one before left. So handle_mail still gets the accepted envelope, nothing happens after a handler that did not complete its stream, the sink's contract is kept, and a session that is not waiting for the sink has handed over and flushed every reply. If the user code keeps the rules (it does not panic, its replies can be sent, the handler reads to the end and then completes its stream once) the session does not panic, every command gets one reply, and the content of each mail is what was read; if it also accepts everything and rewrites nothing, what a client sends, or what arrives of it, is delivered, in order and unaltered, and answered, up to where the session has come. A poll answers Pending only because one of the user's futures, the sink or the incoming stream did, and nothing was asked of them after that; so the session is pending at most as often as they were, and it ends if the sink answers in the end and every future of the user's ends.", "quantifier": "every implementation of the configuration by arbitrary futures, every sink, incoming stream and number of polls", "why_tests_cant": "ranges over arbitrary user code and all interleavings of its suspension with the stream and the sink", "anchors": ["smtp-server/src/interact.rs: interact, handle_line", "smtp-server/src/config.rs: Config", "smtp-message/src/data/stream.rs: DataStream::poll_next, DataStream::complete"]}
{"id": "C71", "title": "Address literals are written in canonical form", "statement": "An IPv4 literal is sent as '[', four decimal numbers without leading zeros separated by dots, ']'. An IPv6 literal is sent as '[IPv6:', eight groups in lower-case hexadecimal without leading zeros, the first of the longest runs of two or more zero groups shortened to '::' (RFC 5952), ']'; an address that holds an IPv4 address (IPv4-compatible or IPv4-mapped) ends in its dotted form. There is exactly one such text for an address, so what is sent can be compared as text.", "quantifier": "every IPv4 and IPv6 address", "why_tests_cant": "there are 2^32 and 2^128 addresses; a wrong form parses back to the same address, so a round-trip test does not notice it", "anchors": ["smtp-message/src/domain.rs: Domain, Sendable for Domain"]}
{"id": "C72", "title": "Work: a message is looked at once, sent text at most twice; a line once for every packet it comes in", "statement": "Reading a message through DataStream looks at no more positions than the bytes taken, plus one for each packet or Pending answer taken and one for each poll, so a client cannot make it slow. DataSink::send looks at no byte of its argument more than twice whatever the sink answers, and when it succeeds at exactly as many as it has written. next_crlf_line compares at most (packets taken for the line + 1) times the bytes of the line (or of what it collected without finding one), so a connection whose lines come in at most k packets each costs at most (k + 1) times its bytes; this is attained: a line of n bytes sent one byte at a time costs n(n-1)/2 comparisons, for every line. Counting does not change what the functions do.", "quantifier": "every incoming stream (packets, Pending answers), every number of polls and calls, every message and sink", "why_tests_cant": "a benchmark times some inputs; the bounds hold for every packetisation, and the quadratic case for every line", "anchors": ["smtp-server/src/crlflines.rs: next_crlf_line", "smtp-message/src/data/stream.rs: DataStream::poll_next", "smtp-message/src/data/sink.rs: DataSink::send"]}
{"id": "C73", "title": "A session that waits for the client has dealt with everything that came", "statement": "Whenever a poll of the future returned by interact answers Pending and neither the sink nor a future of the user code answered Pending in it, the session is where a session on the received bytes alone, with the same answers of user code and sink, ends: same replies, same calls of the configuration, same state. So the received bytes are whole commands and messages, each of them answered and the messages given to handle_mail, plus an unfinished last line; all replies were handed to the sink and it was flushed since. With user code that accepts everything, once what a client sends has come to its last byte, every message is delivered and every command answered before the server waits for more.", "quantifier": "every user code that keeps the rules (futures that suspend and change their state; for the flushing: any user code), sink, incoming events, and number of polls", "why_tests_cant": "a test sees some packetisations, suspension points and schedules; whether something stays unanswered while both sides wait (a deadlock) depends on all of them", "anchors": ["smtp-server/src/lib.rs: interact", "smtp-server/src/crlflines.rs: next_crlf_line", "smtp-server/src/config.rs: Config"]}
{"id": "C74", "title": "Parsing work: linear in the line, whatever the line", "statement": "Command::parse, ReplyLine::parse, Domain::parse_slice and Email::parse_slice look at the bytes they are given a number of times at most proportional to their length, whether the input is well formed or not: at most 100(n+3), 2(n+4), 4(n+4) and 10(n+3) looks for n bytes. So no crafted source route, address literal, quoted string, parameter list or verb makes the alternatives of the grammar be tried again and again, and all the lines of a connection together cost at most 250 looks for each byte received. The count leaves nothing out: every byte of an accepted input has been looked at; and counting does not change the result.", "quantifier": "every byte string (accepted, rejected or incomplete), every list of lines", "why_tests_cant": "a backtracking parser is fast on every line of a test suite; only a bound for all inputs excludes the one that makes it quadratic or exponential", "anchors": ["smtp-message/src/command.rs: command", "smtp-message/src/email.rs: email, address_in_path, address_in_maybe_bracketed_path", "smtp-message/src/domain.rs: hostname", "smtp-message/src/parameters.rs: parse_parameters", "smtp-message/src/reply.rs: reply"]}
{"id": "C75", "title": "Relaying to a receiver that takes a bare line feed for a line end", "statement": "What DataSink sends for a message, read by a receiver for which LF alone ends a line too (and a dot alone on such a line the message): the receiver finds the end of the message never after, and before it exactly if the message, as received, has after an LF without CR a dot alone on its line. If every LF of the message has its CR, such a receiver gets exactly the message. Otherwise nothing protects it: for any list of command lines there is a message that this server's DataStream takes from a client as one message and that, sent on with DataSink in any pieces, makes the receiver take those lines for commands of the sender (SMTP smuggling); a relay must refuse or repair bare LFs itself.", "quantifier": "every message, every way of giving it to the sink, whatever follows on the connection; every list of command lines to smuggle", "why_tests_cant": "the exact condition, and that nothing else ends a message early, is about all messages", "anchors": ["smtp-message/src/data/sink.rs: DataSink::send, DataSink::end", "smtp-message/src/data/stream.rs: DataStream::poll_next"]}
{"id": "C76", "title": "Mail goes through any number of servers unchanged", "statement": "Whatever bytes a client sends to a first server whose filters rewrite nothing (they may refuse), every mail that server takes responsibility for (text reported complete, handler accepts) can be sent on with Command::send_to and DataSink, and after any number of further accepting servers, each sending on what it took, with any parameters, commands in between, pieces and packets, the last one has taken exactly the same mails: same sender, same recipients in the same order, same text, none lost, added or merged. For a mail written by an application only the end of the text can change (a missing last CRLF), and only at the first hop.", "quantifier": "every byte sequence sent to the first server, every number of hops, every configuration, parameter list, chunking and packetisation at each hop", "why_tests_cant": "it ranges over all inputs of the first server and all lengths of the chain; needs that everything the parser accepts can be expressed by the sender and read back, for ever", "anchors": ["smtp-message/src/command.rs: Command::parse, Command::send_to", "smtp-message/src/data/sink.rs: DataSink", "smtp-message/src/data/stream.rs: DataStream", "smtp-server/src/interact.rs: interact"]}
{"id": "C77", "title": "Client and server agree on what was delivered", "statement": "A client goes by the replies it reads: it sends MAIL, RCPT, DATA, the text with DataSink and other commands each only after the reply to the one before, names a mail delivered if the verdict on its text was 2xx, and stops at any moment. Against a server whose replies mean what they say (as those of the default methods do) and whose filters rewrite nothing, in every run - end of what was sent lost, writer failing, server stopped at any point, replies unread - the mails the server took are exactly those the client names delivered, in this order, each with exactly the recipients confirmed to the client and its text, and possibly the one last mail whose verdict the client has not read, nothing else. The server has no way to abandon a transaction: RSET is answered and ignored, so a client that relies on it gets the second mail delivered under the first sender to both mails' recipients. A client that does not wait for the go-ahead can have its text taken for commands.", "quantifier": "every list of mails, every behaviour of such a client, every honest configuration, every loss, failure and stopping point", "why_tests_cant": "agreement must survive every combination of refusals and every point of failure", "anchors": ["smtp-server/src/interact.rs: interact", "smtp-server/src/config.rs: Config", "smtp-message/src/command.rs: Command::send_to", "smtp-message/src/data/sink.rs: DataSink"]}
{"id": "C78", "title": "What a client can make the server do is bounded by what it sends", "statement": "A client that has sent n CRLFs, in whatever packets and whatever else it has sent, has got at most n+2 replies (one for each line, the greeting, and the verdict on a message that was cut), and has caused at most n calls of the filters, n of new_mail and of handle_mail each, and n+1 of filters and handle_mail together; so if no reply is longer than k bytes the server has written at most k(n+2) bytes (512(n+2) for the default replies with refusals of up to 506 bytes). A mail given to handle_mail has at most n-2 recipients, and there is no other limit: every server that accepts takes a mail to any number of recipients. The bounds are reached; an empty line of 2 bytes makes a default server write 28. All this also holds at every moment of a session with arbitrary futures as user code.", "quantifier": "every incoming byte sequence and packetisation, every lawful configuration (also by arbitrary futures), every writer or sink and failure point", "why_tests_cant": "a bound on resources must hold for every input an attacker may choose", "anchors": ["smtp-server/src/interact.rs: interact", "smtp-server/src/config.rs: Config", "smtp-server/src/sendreply.rs: send_reply"]}
{"id": "C79", "title": "A client that waits for every reply is never left waiting", "statement": "A client that takes turns with the server (it sends one command, or after a go-ahead the whole text, reads one reply, and goes on by its code: a sender refused, the next mail; a recipient refused, the next recipient; a text accepted or rejected, the next mail) gets exactly one reply in each turn, after the greeting, whatever it or anybody sends afterwards and however the network cuts and delays what was sent before; so it gets through all its mails, except that it has to give up when no recipient was taken or the text was refused before it was sent (RSET is not implemented). The mails it then takes for delivered are exactly those the server accepted, in order, and if the server accepts everything they are all of its mails.", "quantifier": "every client (parameters, way of writing texts) and list of mails it can write down, every honest lawful configuration whose filters hand addresses on unchanged, every reliable writer, every network that delivers the bytes, every continuation", "why_tests_cant": "absence of deadlock must hold for every sequence of verdicts and every packetisation", "anchors": ["smtp-server/src/interact.rs: interact", "smtp-message/src/data.rs: DataStream, DataSink", "smtp-message/src/streamext.rs: next_crlf"]}
{"id": "C80", "title": "Retries do not multiply tasks", "statement": "However often mails are refused and tried again, operations fail and instances crash and are restarted, the tasks alive that are for a mail are at most as many as the times startups have listed it (as queued or as in flight), so at most two per startup if no listing names it twice; all tasks alive are at most one for each startup and one for each mail it listed. Nothing but these tasks does anything with the mail. The tasks ever started are at most one for each startup, one for each mail listed and one for each refused mail put back. The bounds are reached.", "quantifier": "every history, every interleaving, any number of instances, crashes and failures included", "why_tests_cant": "a leak shows only after unboundedly many refusals and restarts, on every interleaving", "anchors": ["smtp-queue/src/run.rs: run", "smtp-queue/src/send_queued_mail.rs: send_queued_mail"]}
{"id": "C81", "title": "Between two mails a connection is as good as new", "statement": "If what was sent over a connection ends with a line end, no message in it was cut and every transaction begun in it was ended by a mail, then everything sent after it causes exactly the replies and configuration calls, with the same arguments, mail contents and result, that it would cause over a new connection to the same configuration (in the state it is then in) after that connection's banner. So any number of mails may be sent over one connection or over one connection each: only the configuration's own state and the connection's metadata reach from one to the other.", "quantifier": "every configuration whose mail handler looks only at the concatenated data and whose replies can be sent, every two (or list of) byte sequences, every packetisation of each, every writer that does not fail", "why_tests_cant": "what an earlier mail left behind may show only after one of infinitely many histories", "anchors": ["smtp-server/src/interact.rs: interact, handle_line", "smtp-message/src/streamext/prependable.rs: Prependable", "smtp-message/src/data/stream.rs: DataStream"]}
