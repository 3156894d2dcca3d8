(** Model of the command half of smtp-message: character classes, domains,
    e-mail addresses, parameters, commands; parsers and [send_to]. *)
From Verif Require Import Bytes Nom Ip.

(** * stupidparsers.rs *)
(** smtp-message/src/stupidparsers.rs:3-7 *)
Definition spaces : bytes := [SP; TAB].
(** stupidparsers.rs:8-12 *)
Definition alpha_lower : bytes := s2b "abcdefghijklmnopqrstuvwxyz".
(** stupidparsers.rs:13-17 *)
Definition alpha_upper : bytes := s2b "ABCDEFGHIJKLMNOPQRSTUVWXYZ".
(** stupidparsers.rs:18-22 *)
Definition alpha : bytes := alpha_lower ++ alpha_upper.
(** stupidparsers.rs:23-27 *)
Definition digit : bytes := s2b "0123456789".
(** stupidparsers.rs:28-32 *)
Definition alnum : bytes := alpha ++ digit.
(** stupidparsers.rs:33-37 *)
Definition atext : bytes := alnum ++ s2b "!#$%&'*+-/=?^_`{|}~".
(** stupidparsers.rs:38-42 *)
Definition alnumdash : bytes := alnum ++ s2b "-".
(** stupidparsers.rs:43-47 *)
Definition graph_except_equ : bytes :=
  alnum ++ s2b "!""#$%&'()*+,-./:;<>?@[\]^_`{|}~".
(** stupidparsers.rs:49 *)
Definition eat_spaces : parser bytes := eat_separator spaces.

(** * domain.rs *)
(** smtp-message/src/domain.rs:15-19 *)
Inductive domain :=
| Host (s : bytes)
| Addr4 (a : ipv4)
| Addr6 (a : ipv6).

(** One label: [preceded!(one_of!(alnum!()), opt!(is_a!(concat!(alnum!(), "-"))))]
    (domain.rs:49-50; the same expression is the parameter key,
    parameters.rs:37). *)
Definition label : parser (option bytes) :=
  preceded (one_of alnum) (opt (is_a alnumdash)).

(** [hostname] (domain.rs:45-62).  [into_utf8] is left out here: a byte
    string that is not UTF-8 makes [map_res!] fail, and so does one that is not an
    address.  It is in SliceParser.v, and PropSlice.v proves the agreement. *)
Definition hostname_host : parser domain :=
  pmap (recognize (separated_nonempty_list_complete (tag (s2b ".")) label)) Host.
Definition hostname_v6 : parser domain :=
  map_res (preceded (tag (s2b "[IPv6:")) (take_until_and_consume (s2b "]")))
          (fun x => option_map Addr6 (ipv6_from_str x)).
Definition hostname_v4 : parser domain :=
  map_res (preceded (tag (s2b "[")) (take_until_and_consume (s2b "]")))
          (fun x => option_map Addr4 (ipv4_from_str x)).
Definition hostname : parser domain :=
  alt hostname_host (alt hostname_v6 hostname_v4).

(** [Domain::parse], [Domain::parse_slice] (domain.rs:22-29) *)
Definition domain_parse (b : bytes) : presult domain := nom_to_result (hostname b).

(** [Sendable for Domain] (domain.rs:32-41) *)
Definition domain_send (d : domain) : bytes :=
  match d with
  | Host s => s
  | Addr4 a => s2b "[" ++ show_ipv4 a ++ s2b "]"
  | Addr6 a => s2b "[IPv6:" ++ show_ipv6 a ++ s2b "]"
  end.

(** * email.rs *)
(** smtp-message/src/email.rs:14-17 *)
Record email := Email { em_localpart : bytes; em_hostname : option domain }.

(** [dot_string] (email.rs:103-105) *)
Definition dot_string : parser bytes :=
  recognize (separated_nonempty_list_complete (tag (s2b ".")) (is_a atext)).

(** The closures of [verify!(take!(1), ...)] (email.rs:111-112): [x] has
    exactly one byte. *)
Definition quoted_pair_ok (x : bytes) : bool :=
  match x with c :: _ => (32 <=? c)%N && (c <=? 126)%N | [] => false end.
Definition qtext_ok (x : bytes) : bool :=
  match x with
  | c :: _ => (32 <=? c)%N && negb (c =? 34)%N && negb (c =? 92)%N && (c <=? 126)%N
  | [] => false
  end.
Definition quoted_char : parser bytes :=
  alt (preceded (tag [BACKSLASH]) (verify (take 1) quoted_pair_ok))
      (verify (take 1) qtext_ok).
(** [quoted_string] (email.rs:108-116) *)
Definition quoted_string : parser bytes :=
  recognize (fun i =>
    bind (tag [QUOTE] i) (fun i _ =>
    bind (many0 quoted_char i) (fun i _ =>
    bind (tag [QUOTE] i) (fun i _ => Done i tt)))).

(** [localpart] (email.rs:118) *)
Definition localpart : parser bytes := alt quoted_string dot_string.

(** [email] (email.rs:120-124) *)
Definition email_p : parser email := fun i =>
  bind (localpart i) (fun i local =>
  bind (opt (complete (preceded (tag (s2b "@")) hostname)) i) (fun i host =>
  Done i (Email local host))).

(** [address_in_path] (email.rs:126-133) *)
Definition path_hop : parser unit := fun i =>
  bind (tag (s2b "@") i) (fun i _ =>
  bind (hostname i) (fun i _ => Done i tt)).
Definition source_route : parser unit := fun i =>
  bind (separated_list (tag (s2b ",")) path_hop i) (fun i _ =>
  bind (tag (s2b ":") i) (fun i _ => Done i tt)).
Definition address_in_path : parser email :=
  preceded (opt source_route) email_p.

(** [address_in_maybe_bracketed_path] (email.rs:135-145) *)
Definition bracketed_path : parser email := fun i =>
  bind (tag (s2b "<") i) (fun i _ =>
  bind (address_in_path i) (fun i addr =>
  bind (tag (s2b ">") i) (fun i _ => Done i addr))).
Definition address_in_maybe_bracketed_path : parser email :=
  alt bracketed_path address_in_path.

(** [Email::parse], [Email::parse_slice] (email.rs:27-34) *)
Definition email_parse (b : bytes) : presult email := nom_to_result (email_p b).

(** [Sendable for Email] (email.rs:81-91) *)
Definition email_send (e : email) : bytes :=
  em_localpart e ++
  match em_hostname e with
  | Some host => s2b "@" ++ domain_send host
  | None => []
  end.
(** [Sendable for Option<Email>] (email.rs:93-101) *)
Definition opt_email_send (e : option email) : bytes :=
  match e with Some e => email_send e | None => [] end.

(** The [scan]/[filter_map] of [Email::localpart] (email.rs:54-72); [esc] is
    [State::Backslash]. *)
Fixpoint unescape_scan (esc : bool) (l : bytes) : bytes :=
  match l with
  | [] => []
  | x :: l' =>
      if esc then x :: unescape_scan false l'
      else if (x =? BACKSLASH)%N then unescape_scan true l'
      else x :: unescape_scan false l'
  end.
(** [Email::localpart] (email.rs:44-77).  [None] is a panic: [byte(0)] of an
    empty local part, [pop().unwrap()] of an empty vector, or the [assert_eq!]. *)
Definition email_localpart (e : email) : option bytes :=
  match em_localpart e with
  | [] => None
  | c :: l =>
      if negb (c =? QUOTE)%N then Some (c :: l)
      else let res := unescape_scan false l in
           match rev res with
           | [] => None
           | last :: res' => if (last =? QUOTE)%N then Some (rev res') else None
           end
  end.

(** * parameters.rs *)
(** smtp-message/src/parameters.rs:9: a [HashMap].  Modelled as the list of its
    entries in iteration order (which Rust does not specify), keys distinct;
    equality of maps is [params_eq]. *)
Definition parameters := list (bytes * option bytes).

Fixpoint params_get (k : bytes) (m : parameters) : option (option bytes) :=
  match m with
  | [] => None
  | (k', v) :: m' => if beq k k' then Some v else params_get k m'
  end.
Definition params_eq (m1 m2 : parameters) : Prop :=
  forall k, params_get k m1 = params_get k m2.

(** [HashMap::insert] *)
Fixpoint params_insert (k : bytes) (v : option bytes) (m : parameters) : parameters :=
  match m with
  | [] => [(k, v)]
  | (k', v') :: m' =>
      if beq k k' then (k', v) :: m' else (k', v') :: params_insert k v m'
  end.
(** [params.into_iter().collect()] (parameters.rs:42) *)
Definition params_collect (l : list (bytes * option bytes)) : parameters :=
  fold_left (fun m kv => params_insert (fst kv) (snd kv) m) l [].

(** [Sendable for Parameters] (parameters.rs:17-29) *)
Fixpoint params_send (m : parameters) : bytes :=
  match m with
  | [] => []
  | (k, v) :: m' =>
      s2b " " ++ k ++ (match v with Some v => s2b "=" ++ v | None => [] end) ++ params_send m'
  end.

(** One parameter (parameters.rs:34-40) *)
Definition parameter : parser (bytes * option bytes) := fun i =>
  bind (one_of spaces i) (fun i _ =>
  bind (eat_spaces i) (fun i _ =>
  bind (recognize label i) (fun i key =>
  bind (opt (complete (preceded (tag (s2b "=")) (is_a graph_except_equ))) i) (fun i value =>
  Done i (key, value))))).
(** [parse_parameters] (parameters.rs:32-43) *)
Definition parse_parameters : parser parameters :=
  pmap (many0 parameter) params_collect.

(** * command.rs and the command modules *)
(** smtp-message/src/command.rs:28-40 with the structures of the modules *)
Inductive command :=
| Data
| Ehlo (d : domain)
| Expn (name : bytes)
| Helo (d : domain)
| Help (subject : bytes)
| Mail (from : option email) (params : parameters)
| Noop (str : bytes)
| Quit
| Rcpt (to : email) (params : parameters)
| Rset
| Vrfy (name : bytes).

(** [command_data_args] (data/mod.rs:31-34); same shape in quit/mod.rs:26-33
    and rset/mod.rs:26-33 *)
Definition bare_command (verb : bytes) (c : command) : parser command := fun i =>
  bind (tag_no_case verb i) (fun i _ =>
  bind (eat_spaces i) (fun i _ =>
  bind (crlf i) (fun i _ => Done i c))).
Definition command_data_args : parser command := bare_command (s2b "DATA") Data.
Definition command_quit_args : parser command := bare_command (s2b "QUIT") Quit.
Definition command_rset_args : parser command := bare_command (s2b "RSET") Rset.

(** [command_ehlo_args] (ehlo/mod.rs:32-41), [command_helo_args]
    (helo/mod.rs:32-41).  [sep!(eat_spaces, do_parse!(...))] runs [eat_spaces]
    before each parser of the sequence. *)
Definition hello_command (verb : bytes) (mk : domain -> command) : parser command := fun i =>
  bind (eat_spaces i) (fun i _ =>
  bind (tag_no_case verb i) (fun i _ =>
  bind (eat_spaces i) (fun i _ =>
  bind (hostname i) (fun i d =>
  bind (eat_spaces i) (fun i _ =>
  bind (tag CRLF i) (fun i _ => Done i (mk d))))))).
Definition command_ehlo_args : parser command := hello_command (s2b "EHLO") Ehlo.
Definition command_helo_args : parser command := hello_command (s2b "HELO") Helo.

(** [command_expn_args] (expn/mod.rs:27-34), [command_vrfy_args]
    (vrfy/mod.rs:27-34) *)
Definition string_command (verb : bytes) (mk : bytes -> command) : parser command := fun i =>
  bind (tag_no_case verb i) (fun i _ =>
  bind (one_of spaces i) (fun i _ =>
  bind (take_until CRLF i) (fun i res =>
  bind (tag CRLF i) (fun i _ => Done i (mk res))))).
Definition command_expn_args : parser command := string_command (s2b "EXPN") Expn.
Definition command_vrfy_args : parser command := string_command (s2b "VRFY") Vrfy.

(** [command_help_args] (help/mod.rs:28-35), [command_noop_args]
    (noop/mod.rs:27-34) *)
Definition opt_string_command (verb : bytes) (mk : bytes -> command) : parser command := fun i =>
  bind (tag_no_case verb i) (fun i _ =>
  bind (opt (one_of spaces) i) (fun i _ =>
  bind (take_until CRLF i) (fun i res =>
  bind (tag CRLF i) (fun i _ => Done i (mk res))))).
Definition command_help_args : parser command := opt_string_command (s2b "HELP") Help.
Definition command_noop_args : parser command := opt_string_command (s2b "NOOP") Noop.

(** [command_mail_args] (mail/mod.rs:45-56) *)
Definition mail_from : parser (option email) :=
  alt (pmap (tag (s2b "<>")) (fun _ => None))
      (pmap address_in_maybe_bracketed_path Some).
Definition command_mail_args : parser command := fun i =>
  bind (tag_no_case (s2b "MAIL FROM:") i) (fun i _ =>
  bind (eat_spaces i) (fun i _ =>
  bind (mail_from i) (fun i from =>
  bind (parse_parameters i) (fun i params =>
  bind (eat_spaces i) (fun i _ =>
  bind (crlf i) (fun i _ => Done i (Mail from params))))))).

(** [command_rcpt_args] (rcpt/mod.rs:34-42) *)
Definition command_rcpt_args : parser command := fun i =>
  bind (tag_no_case (s2b "RCPT TO:") i) (fun i _ =>
  bind (eat_spaces i) (fun i _ =>
  bind (address_in_maybe_bracketed_path i) (fun i to =>
  bind (parse_parameters i) (fun i params =>
  bind (eat_spaces i) (fun i _ =>
  bind (crlf i) (fun i _ => Done i (Rcpt to params))))))).

(** [command] (command.rs:64-76) *)
Definition command_p : parser command :=
  alt command_data_args
 (alt command_ehlo_args
 (alt command_expn_args
 (alt command_helo_args
 (alt command_help_args
 (alt command_mail_args
 (alt command_noop_args
 (alt command_quit_args
 (alt command_rcpt_args
 (alt command_rset_args
      command_vrfy_args))))))))).

(** [Command::parse] (command.rs:43-45) *)
Definition command_parse (b : bytes) : presult command := nom_to_result (command_p b).

(** [Command::send_to] (command.rs:47-61) and the [send_to] of the modules *)
Definition command_send (c : command) : bytes :=
  match c with
  | Data => s2b "DATA" ++ CRLF                                             (* data/mod.rs:22-24 *)
  | Ehlo d => s2b "EHLO " ++ domain_send d ++ CRLF                         (* ehlo/mod.rs:25-29 *)
  | Expn s => s2b "EXPN " ++ s ++ CRLF                                     (* expn/mod.rs:20-24 *)
  | Helo d => s2b "HELO " ++ domain_send d ++ CRLF                         (* helo/mod.rs:25-29 *)
  | Help s => s2b "HELP " ++ s ++ CRLF                                     (* help/mod.rs:20-24 *)
  | Mail f p => s2b "MAIL FROM:<" ++ opt_email_send f ++ s2b ">" ++ params_send p ++ CRLF
                                                                           (* mail/mod.rs:25-33 *)
  | Noop s => s2b "NOOP " ++ s ++ CRLF                                     (* noop/mod.rs:20-24 *)
  | Quit => s2b "QUIT" ++ CRLF                                             (* quit/mod.rs:17-19 *)
  | Rcpt t p => s2b "RCPT TO:<" ++ email_send t ++ s2b ">" ++ params_send p ++ CRLF
                                                                           (* rcpt/mod.rs:24-32 *)
  | Rset => s2b "RSET" ++ CRLF                                             (* rset/mod.rs:17-19 *)
  | Vrfy s => s2b "VRFY " ++ s ++ CRLF                                     (* vrfy/mod.rs:20-24 *)
  end.
