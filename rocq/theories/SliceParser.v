(** The parsers of smtp-message as they run: on [ByteSlice]s, with every panic of
    slicing, indexing, [promote] and [into_utf8] kept.  Message.v and Reply.v give
    the same parsers on byte strings; PropSlice.v shows that the two agree. *)
From Verif Require Import Bytes Nom Ip Message Reply ByteSlice.
Local Open Scope nat_scope.

(** ** More macros of nom 3.2 *)
(** [map!] with a closure that may panic ([None]) *)
Definition b_pmapp {A B} (p : bparser A) (f : A -> option B) : bparser B := fun i =>
  bbind (p i) (fun r x => match f x with Some y => BDone r y | None => BPanic end).
(** [map_res!] with a closure that may panic: outer [None] *)
Definition b_map_resp {A B} (p : bparser A) (f : A -> option (option B)) : bparser B := fun i =>
  bbind (p i) (fun r x => match f x with Some (Some y) => BDone r y | Some None => BErr | None => BPanic end).
(** [verify!] with a closure that may panic *)
Definition b_verifyp {A} (p : bparser A) (f : A -> option bool) : bparser A := fun i =>
  bbind (p i) (fun r x => match f x with Some true => BDone r x | Some false => BErr | None => BPanic end).
(** [preceded!] *)
Definition b_preceded {A B} (p : bparser A) (q : bparser B) : bparser B := b_seq p (fun _ => q).
(** The tuple at the end of [do_parse!], computed by an expression that may panic *)
Definition b_ret {A} (x : option A) : bparser A := fun i => match x with Some y => BDone i y | None => BPanic end.
(** [many0!] *)
Fixpoint b_many0_loop {A} (fuel : nat) (p : bparser A) (i : bslice) : bresult (list A) :=
  match fuel with
  | O => BOutOfFuel
  | S fuel' =>
      if input_len i =? 0 then BDone i []
      else match p i with
           | BErr => BDone i []
           | BIncomplete => BIncomplete
           | BPanic => BPanic
           | BOutOfFuel => BOutOfFuel
           | BDone i' x =>
               if bs_eq i' i then BErr
               else bbind (b_many0_loop fuel' p i') (fun r xs => BDone r (x :: xs))
           end
  end.
Definition b_many0 {A} (p : bparser A) : bparser (list A) := fun i => b_many0_loop (S (input_len i)) p i.
(** [separated_nonempty_list_complete!] *)
Definition b_separated_nonempty_list_complete {A B} (sep : bparser A) (p : bparser B) : bparser (list B) :=
  b_separated_nonempty_list (b_complete sep) (b_complete p).
Definition b_tag := b_tag_with N.eqb.
Definition b_tag_no_case := b_tag_with eq_no_case.
Definition b_crlf := b_tag CRLF.

(** [str::from_utf8] (Rust std, [run_utf8_validation]): the table of the lengths of
    the sequences, then the ranges of the second bytes, then continuation bytes. *)
Definition cont (b : N) : bool := in_range 128 191 b.
Definition second_of_3 (a b : N) : bool :=
  if (a =? 224)%N then in_range 160 191 b
  else if (a =? 237)%N then in_range 128 159 b
  else cont b.
Definition second_of_4 (a b : N) : bool :=
  if (a =? 240)%N then in_range 144 191 b
  else if (a =? 244)%N then in_range 128 143 b
  else cont b.
Fixpoint utf8_ok (s : bytes) : bool :=
  match s with
  | [] => true
  | a :: s1 =>
      if (a <? 128)%N then utf8_ok s1
      else match s1 with
      | [] => false
      | b :: s2 =>
          if in_range 194 223 a then cont b && utf8_ok s2
          else match s2 with
          | [] => false
          | c :: s3 =>
              if in_range 224 239 a then second_of_3 a b && cont c && utf8_ok s3
              else match s3 with
              | [] => false
              | d :: s4 => in_range 240 244 a && second_of_4 a b && cont c && cont d && utf8_ok s4
              end
          end
      end
  end.
(** byteslice.rs:41-43 *)
Definition into_utf8 (b : bslice) : option (option bytes) :=
  option_map (fun v => if utf8_ok v then Some v else None) (demote b).
(** [x[0]] of a slice, through [Deref] (byteslice.rs:46-52) *)
Definition bs_first (b : bslice) : option N := match demote b with Some (c :: _) => Some c | _ => None end.

(** * domain.rs *)
(** stupidparsers.rs:49 *)
Definition b_eat_spaces : bparser bslice := b_eat_separator spaces.
(** domain.rs:49-50 *)
Definition b_label : bparser (option bslice) := b_preceded (b_one_of alnum) (b_opt (b_is_a alnumdash)).
(** domain.rs:44-62 *)
Definition b_hostname_host : bparser domain :=
  b_pmapp (b_recognize (b_separated_nonempty_list_complete (b_tag (s2b ".")) b_label)) (fun x => option_map Host (promote x)).
Definition b_hostname_v6 : bparser domain :=
  b_map_res (b_map_resp (b_preceded (b_tag (s2b "[IPv6:")) (b_take_until_and_consume (s2b "]"))) into_utf8)
            (fun x => option_map Addr6 (ipv6_from_str x)).
Definition b_hostname_v4 : bparser domain :=
  b_map_res (b_map_resp (b_preceded (b_tag (s2b "[")) (b_take_until_and_consume (s2b "]"))) into_utf8)
            (fun x => option_map Addr4 (ipv4_from_str x)).
Definition b_hostname : bparser domain := b_alt b_hostname_host (b_alt b_hostname_v6 b_hostname_v4).

(** * email.rs *)
(** email.rs:103-105 *)
Definition b_dot_string : bparser bslice :=
  b_recognize (b_separated_nonempty_list_complete (b_tag (s2b ".")) (b_is_a atext)).
(** email.rs:111-112 *)
Definition b_quoted_char : bparser bslice :=
  b_alt (b_preceded (b_tag [BACKSLASH])
          (b_verifyp (b_take 1) (fun x => option_map (fun c => (32 <=? c)%N && (c <=? 126)%N) (bs_first x))))
        (b_verifyp (b_take 1) (fun x =>
          option_map (fun c => (32 <=? c)%N && negb (c =? 34)%N && negb (c =? 92)%N && (c <=? 126)%N) (bs_first x))).
(** email.rs:108-116 *)
Definition b_quoted_string : bparser bslice :=
  b_recognize (b_seq (b_tag [QUOTE]) (fun _ => b_seq (b_many0 b_quoted_char) (fun _ => b_seq (b_tag [QUOTE]) (fun _ => b_ret (Some tt))))).
(** email.rs:118 *)
Definition b_localpart : bparser bslice := b_alt b_quoted_string b_dot_string.
(** email.rs:120-124 *)
Definition b_email : bparser email :=
  b_seq b_localpart (fun local =>
  b_seq (b_opt (b_complete (b_preceded (b_tag (s2b "@")) b_hostname))) (fun host =>
  b_ret (option_map (fun l => Email l host) (promote local)))).
(** email.rs:126-133 *)
Definition b_path_hop : bparser unit := b_seq (b_tag (s2b "@")) (fun _ => b_seq b_hostname (fun _ => b_ret (Some tt))).
Definition b_source_route : bparser unit :=
  b_seq (b_separated_list (b_tag (s2b ",")) b_path_hop) (fun _ => b_seq (b_tag (s2b ":")) (fun _ => b_ret (Some tt))).
Definition b_address_in_path : bparser email := b_preceded (b_opt b_source_route) b_email.
(** email.rs:135-145 *)
Definition b_bracketed_path : bparser email :=
  b_seq (b_tag (s2b "<")) (fun _ => b_seq b_address_in_path (fun addr => b_seq (b_tag (s2b ">")) (fun _ => b_ret (Some addr)))).
Definition b_address_in_maybe_bracketed_path : bparser email := b_alt b_bracketed_path b_address_in_path.

(** * parameters.rs *)
(** [value.map(|x| x.promote().into())] *)
Definition opt_promote (x : option bslice) : option (option bytes) :=
  match x with None => Some None | Some b => option_map Some (promote b) end.
(** parameters.rs:34-38 *)
Definition b_parameter : bparser (bytes * option bytes) :=
  b_seq (b_one_of spaces) (fun _ =>
  b_seq b_eat_spaces (fun _ =>
  b_seq (b_recognize b_label) (fun key =>
  b_seq (b_opt (b_complete (b_preceded (b_tag (s2b "=")) (b_is_a graph_except_equ)))) (fun value =>
  b_ret (match promote key, opt_promote value with Some k, Some v => Some (k, v) | _, _ => None end))))).
(** parameters.rs:32-41 *)
Definition b_parse_parameters : bparser parameters := b_pmap (b_many0 b_parameter) params_collect.

(** * The commands *)
(** data/mod.rs:31-34, quit/mod.rs:26-33, rset/mod.rs:26-33 *)
Definition b_bare_command (verb : bytes) (c : command) : bparser command :=
  b_seq (b_tag_no_case verb) (fun _ => b_seq b_eat_spaces (fun _ => b_seq b_crlf (fun _ => b_ret (Some c)))).
(** ehlo/mod.rs:32-41, helo/mod.rs:32-41 *)
Definition b_hello_command (verb : bytes) (mk : domain -> command) : bparser command :=
  b_seq b_eat_spaces (fun _ =>
  b_seq (b_tag_no_case verb) (fun _ =>
  b_seq b_eat_spaces (fun _ =>
  b_seq b_hostname (fun d =>
  b_seq b_eat_spaces (fun _ =>
  b_seq (b_tag CRLF) (fun _ => b_ret (Some (mk d)))))))).
(** expn/mod.rs:27-34, vrfy/mod.rs:27-34 *)
Definition b_string_command (verb : bytes) (mk : bytes -> command) : bparser command :=
  b_seq (b_tag_no_case verb) (fun _ =>
  b_seq (b_one_of spaces) (fun _ =>
  b_seq (b_take_until CRLF) (fun res =>
  b_seq (b_tag CRLF) (fun _ => b_ret (option_map mk (promote res)))))).
(** help/mod.rs:28-35, noop/mod.rs:27-34 *)
Definition b_opt_string_command (verb : bytes) (mk : bytes -> command) : bparser command :=
  b_seq (b_tag_no_case verb) (fun _ =>
  b_seq (b_opt (b_one_of spaces)) (fun _ =>
  b_seq (b_take_until CRLF) (fun res =>
  b_seq (b_tag CRLF) (fun _ => b_ret (option_map mk (promote res)))))).
(** mail/mod.rs:45-56 *)
Definition b_mail_from : bparser (option email) :=
  b_alt (b_pmap (b_tag (s2b "<>")) (fun _ => None)) (b_pmap b_address_in_maybe_bracketed_path Some).
Definition b_mail_command : bparser command :=
  b_seq (b_tag_no_case (s2b "MAIL FROM:")) (fun _ =>
  b_seq b_eat_spaces (fun _ =>
  b_seq b_mail_from (fun from =>
  b_seq b_parse_parameters (fun params =>
  b_seq b_eat_spaces (fun _ =>
  b_seq b_crlf (fun _ => b_ret (Some (Mail from params)))))))).
(** rcpt/mod.rs:34-42 *)
Definition b_rcpt_command : bparser command :=
  b_seq (b_tag_no_case (s2b "RCPT TO:")) (fun _ =>
  b_seq b_eat_spaces (fun _ =>
  b_seq b_address_in_maybe_bracketed_path (fun to =>
  b_seq b_parse_parameters (fun params =>
  b_seq b_eat_spaces (fun _ =>
  b_seq b_crlf (fun _ => b_ret (Some (Rcpt to params)))))))).
(** command.rs:64-76 *)
Definition b_command : bparser command :=
  b_alt (b_bare_command (s2b "DATA") Data)
 (b_alt (b_hello_command (s2b "EHLO") Ehlo)
 (b_alt (b_string_command (s2b "EXPN") Expn)
 (b_alt (b_hello_command (s2b "HELO") Helo)
 (b_alt (b_opt_string_command (s2b "HELP") Help)
 (b_alt b_mail_command
 (b_alt (b_opt_string_command (s2b "NOOP") Noop)
 (b_alt (b_bare_command (s2b "QUIT") Quit)
 (b_alt b_rcpt_command
 (b_alt (b_bare_command (s2b "RSET") Rset)
        (b_string_command (s2b "VRFY") Vrfy)))))))))).

(** * reply.rs:130-150 *)
Definition b_reply_code : bparser N :=
  b_pmapp (b_verify (b_map_res (b_map_resp (b_take 3) into_utf8) u16_from_str) (fun x => (x <? 1000)%N)) reply_code_custom.
(** [b[0]] is evaluated only if [b.len() == 1] *)
Definition b_is_last (b : bslice) : option bool :=
  if bs_len b =? 1 then option_map (fun c => (c =? SP)%N) (bs_first b) else Some false.
Definition b_reply : bparser reply_line :=
  b_seq b_reply_code (fun code =>
  b_seq (b_pmapp (b_alt (b_tag (s2b "-")) (b_tag (s2b " "))) b_is_last) (fun is_last =>
  b_seq (b_take_until_and_consume CRLF) (fun line =>
  b_ret (option_map (ReplyLine code is_last) (promote line))))).

(** * The entry points *)
(** parseresult.rs:13-25; the outer [None] is a panic *)
Definition b_nom_to_result {A} (d : bresult A) : option (presult A) :=
  match d with
  | BDone rem res => Some (if bs_len rem =? 0 then POk res else PDidNotConsumeEverything (bs_len rem))
  | BErr => Some PParseError
  | BIncomplete => Some PIncompleteString
  | BPanic => None
  | BOutOfFuel => Some POutOfFuel
  end.
(** [Command::parse] (command.rs:43-45); [addr] is where the [Bytes] is *)
Definition b_command_parse (addr : nat) (arg : bytes) : option (presult command) :=
  b_nom_to_result (b_command (bs_from addr arg)).
(** [ReplyLine::parse] (reply.rs:104-106) *)
Definition b_reply_parse (addr : nat) (arg : bytes) : option (presult reply_line) :=
  b_nom_to_result (b_reply (bs_from addr arg)).
(** [Domain::parse] (domain.rs:22-24), [Domain::parse_slice] (domain.rs:26-29) *)
Definition b_domain_parse (i : bslice) : option (presult domain) := b_nom_to_result (b_hostname i).
Definition b_domain_parse_slice (addr : nat) (b : bytes) : option (presult domain) := b_nom_to_result (b_hostname (bs_from addr b)).
(** [Email::parse] (email.rs:27-29), [Email::parse_slice] (email.rs:31-34) *)
Definition b_email_parse (i : bslice) : option (presult email) := b_nom_to_result (b_email i).
Definition b_email_parse_slice (addr : nat) (b : bytes) : option (presult email) := b_nom_to_result (b_email (bs_from addr b)).
