(** The unit tests of /repo replayed on the model (tests, not proofs): they
    check that the model was read correctly, including the nom 3.2 semantics. *)
From Verif Require Import Bytes Nom Ip SmtpString Message Reply Stream.

Local Notation "'b' s" := (s2b s%string) (at level 1, only parsing).
Definition q : string := String (Ascii.ascii_of_N 34) EmptyString.
Definition crlf_s : bytes := CRLF.

(** domain.rs:70-100 *)
Example valid_hostnames :
  map hostname [b "foo--bar"; b "foo.bar.baz"; b "1.2.3.4"; b "[123.255.37.2]";
                b "[IPv6:0::ffff:8.7.6.5]"]
  = [Done [] (Host (b "foo--bar")); Done [] (Host (b "foo.bar.baz"));
     Done [] (Host (b "1.2.3.4")); Done [] (Addr4 (123, 255, 37, 2)%N);
     Done [] (Addr6 [0; 0; 0; 0; 0; 65535; 8 * 256 + 7; 6 * 256 + 5]%N)].
Proof. vm_compute. reflexivity. Qed.
(** domain.rs:102-112 *)
Example partial_hostnames :
  map hostname [b "foo.-bar.baz"; b "foo.bar.-baz"]
  = [Done (b ".-bar.baz") (Host (b "foo")); Done (b ".-baz") (Host (b "foo.bar"))].
Proof. vm_compute. reflexivity. Qed.
(** domain.rs:114-123 *)
Example invalid_hostnames : hostname (b "-foo.bar") = Err.
Proof. vm_compute. reflexivity. Qed.
(** ehlo/mod.rs:72-88 *)
Example ehlo_builds :
  map domain_parse [b "test."; b "test.foo.bar "; b "-test.foo.bar"]
  = [PDidNotConsumeEverything 1; PDidNotConsumeEverything 1; PParseError].
Proof. vm_compute. reflexivity. Qed.
Example ehlo_args :
  map command_ehlo_args
    [b "eHlO " ++ [TAB] ++ b " hello.world " ++ [TAB] ++ b " " ++ CRLF;
     b "EHLO hello.world" ++ CRLF]
  = [Done [] (Ehlo (Host (b "hello.world"))); Done [] (Ehlo (Host (b "hello.world")))].
Proof. vm_compute. reflexivity. Qed.

(** email.rs:147-270 *)
Example valid_dot_strings :
  map dot_string [b "helloooo"; b "test.ing"]
  = [Done [] (b "helloooo"); Done [] (b "test.ing")].
Proof. vm_compute. reflexivity. Qed.
Example valid_quoted_strings :
  let t := b """\""escapes\"", useless like h\ere, except for quotes and \\backslashes""" in
  quoted_string t = Done [] t.
Proof. vm_compute. reflexivity. Qed.
Example valid_emails :
  map email_p [b "t+e-s.t_i+n-g@foo.bar.baz"; b """quoted\""example""@example.org"; b "postmaster"]
  = [Done [] (Email (b "t+e-s.t_i+n-g") (Some (Host (b "foo.bar.baz"))));
     Done [] (Email (b """quoted\""example""") (Some (Host (b "example.org"))));
     Done [] (Email (b "postmaster") None)].
Proof. vm_compute. reflexivity. Qed.
Example nice_localpart :
  map (fun s => match email_p s with Done _ e => email_localpart e | _ => None end)
    [b "t+e-s.t_i+n-g@foo.bar.baz "; b """quoted\""example""@example.org ";
     b """escaped\\exa\mple""@example.org "]
  = [Some (b "t+e-s.t_i+n-g"); Some (b "quoted""example"); Some (b "escaped\example")].
Proof. vm_compute. reflexivity. Qed.
Example invalid_localpart : email_p (b "@foo.bar") = Err.
Proof. vm_compute. reflexivity. Qed.
Example valid_maybe_bracketed :
  map address_in_maybe_bracketed_path
    [b "@foo.bar,@baz.quux:test@example.org"; b "<@foo.bar,@baz.quux:test@example.org>";
     b "<foo@bar.baz>"; b "foo@bar.baz"]
  = [Done [] (Email (b "test") (Some (Host (b "example.org"))));
     Done [] (Email (b "test") (Some (Host (b "example.org"))));
     Done [] (Email (b "foo") (Some (Host (b "bar.baz"))));
     Done [] (Email (b "foo") (Some (Host (b "bar.baz"))))].
Proof. vm_compute. reflexivity. Qed.

(** parameters.rs:48-78 *)
Example valid_parameters :
  map parse_parameters
    [b " key=value"; [TAB] ++ b "key=value" ++ [TAB] ++ b "key2=value2";
     b " KeY2=V4""l\u@e.z" ++ [TAB] ++ b "0tterkeyz=very_muchWh4t3ver";
     b " NoValueKey"; b " A B"; b " A=B C D=SP"]
  = [Done [] [(b "key", Some (b "value"))];
     Done [] [(b "key", Some (b "value")); (b "key2", Some (b "value2"))];
     Done [] [(b "KeY2", Some (b "V4""l\u@e.z")); (b "0tterkeyz", Some (b "very_muchWh4t3ver"))];
     Done [] [(b "NoValueKey", None)];
     Done [] [(b "A", None); (b "B", None)];
     Done [] [(b "A", Some (b "B")); (b "C", None); (b "D", Some (b "SP"))]].
Proof. vm_compute. reflexivity. Qed.

(** command.rs:84-240 *)
Example valid_commands :
  map (fun s => command_parse (s ++ CRLF))
    [b "DATA"; b "EHLO foo.bar.baz"; b "EXPN mailing.list "; b "HELO foo.bar.baz";
     b "HELP foo.bar.baz"; b "HELP "; b "HELP"; b "MAIL FROM:<hello@world.example>";
     b "NOOP"; b "QUIT"; b "rCpT To: foo@bar.baz"; b "RCPT to:<@foo.bar,@bar.baz:baz@quux.foo>";
     b "RSET"; b "RsEt " ++ [TAB] ++ b " "; b "VRFY  root"]
  = [POk Data; POk (Ehlo (Host (b "foo.bar.baz"))); POk (Expn (b "mailing.list "));
     POk (Helo (Host (b "foo.bar.baz"))); POk (Help (b "foo.bar.baz")); POk (Help []);
     POk (Help []); POk (Mail (Some (Email (b "hello") (Some (Host (b "world.example"))))) []);
     POk (Noop []); POk Quit;
     POk (Rcpt (Email (b "foo") (Some (Host (b "bar.baz")))) []);
     POk (Rcpt (Email (b "baz") (Some (Host (b "quux.foo")))) []);
     POk Rset; POk Rset; POk (Vrfy (b " root"))].
Proof. vm_compute. reflexivity. Qed.
(** mail/mod.rs:70-113 *)
Example mail_args :
  map (fun s => command_mail_args (s ++ CRLF))
    [b "Mail FROM:<@one,@two:foo@bar.baz>";
     b "MaiL FrOm: quux@example.net  " ++ [TAB] ++ b " ";
     b "mail FROM:<>"; b "MAIL FROM:<> hello=world foo"]
  = [Done [] (Mail (Some (Email (b "foo") (Some (Host (b "bar.baz"))))) []);
     Done [] (Mail (Some (Email (b "quux") (Some (Host (b "example.net"))))) []);
     Done [] (Mail None []);
     Done [] (Mail None [(b "hello", Some (b "world")); (b "foo", None)])].
Proof. vm_compute. reflexivity. Qed.
(** mail/mod.rs:115-121 *)
Example mail_incomplete :
  map command_mail_args [b "MAIL FROM:<foo@bar.com"; b "mail from:foo@bar.com"]
  = [Incomplete; Incomplete].
Proof. vm_compute. reflexivity. Qed.

(** reply.rs:152-248 *)
Example replies :
  map reply_parse [b "250 All is well" ++ CRLF; b "450-Temporary" ++ CRLF]
  = [POk (ReplyLine 250 true (b "All is well")); POk (ReplyLine 450 false (b "Temporary"))].
Proof. vm_compute. reflexivity. Qed.
Example reply_refuse :
  reply_build 552 true (repeat 97%N 1000) = inr (LineTooLong 1000 506)
  /\ reply_build 552 false [CR] = inr (DisallowedByte 13 0).
Proof. vm_compute. split; reflexivity. Qed.

(** data/sink.rs:80-107 *)
Definition sink_run (items : list bytes) : bytes :=
  concat (fst (sink_end (fun _ _ => PutOk) (fst (sink_send_all (fun _ _ => PutOk) sink_new items)))).
Example valid_data_sink :
  map sink_run [[b "foo"; b " bar"]; [[]]; [b "."]; [b "foo" ++ [CR]]; [b "foo bar" ++ [CR]; [LF]]]
  = [b "foo bar" ++ CRLF ++ b "." ++ CRLF; b "." ++ CRLF; b ".." ++ CRLF ++ b "." ++ CRLF;
     b "foo" ++ [CR] ++ CRLF ++ b "." ++ CRLF; b "foo bar" ++ CRLF ++ b "." ++ CRLF].
Proof. vm_compute. reflexivity. Qed.

(** data/stream.rs:236-283 *)
Definition ds_run (chunks : list bytes) : option bytes * complete_result * option bytes :=
  let '(items, d) := ds_read_all (ds_new (prep_new (src_of (map Chunk chunks)))) in
  let '(r, d') := ds_complete d in
  let p := ds_source d' in
  (option_map (@concat N) items, r,
   Some ((match pr_prepended p with Some x => x | None => [] end)
         ++ concat (map (fun e => match e with Chunk x => x | Pend => [] end)
                        (src_events (pr_stream p))))).
Example valid_data_stream :
  map ds_run
    [[b "foo"; b " bar"; CRLF; b "." ++ [CR]; [LF]];
     [CRLF ++ b "." ++ CRLF; CRLF];
     [b ".baz" ++ CRLF; b "." ++ CRLF; b "foo"];
     [b " .baz"; CRLF ++ b "."; CRLF ++ b "foo"];
     [b "." ++ CRLF; b "MAIL FROM"];
     [b ".." ++ CRLF ++ b "." ++ CRLF];
     [b "foo" ++ CRLF ++ b ". "; b "bar" ++ CRLF ++ b "." ++ CRLF]]
  = [(Some (b "foo bar" ++ CRLF), CompleteOk, Some []);
     (Some CRLF, CompleteOk, Some CRLF);
     (Some (b "baz" ++ CRLF), CompleteOk, Some (b "foo"));
     (Some (b " .baz" ++ CRLF), CompleteOk, Some (b "foo"));
     (Some [], CompleteOk, Some (b "MAIL FROM"));
     (Some (b "." ++ CRLF), CompleteOk, Some []);
     (Some (b "foo" ++ CRLF ++ b " bar" ++ CRLF), CompleteOk, Some [])].
Proof. vm_compute. reflexivity. Qed.
