(** Model of the [send_to] methods on an [io::Write] that may write less than
    asked, be interrupted, or fail.  Message.v and Reply.v give the bytes only. *)
From Verif Require Import Bytes Nom SmtpString Ip Message Reply.

(** What [io::Write::write] answers: [Ok(n)], an error of kind [Interrupted], or
    another error. *)
Inductive wanswer := WOk (n : nat) | WInterrupted | WErr.
(** How a [send_to] ends: [Ok(())], [Err(_)], a panic; [WNoFuel]: the model gave
    up, after as many calls of [write] as there was fuel for. *)
Inductive wend := WDone | WFailed | WPanic | WNoFuel.

Section Write.
Context {W : Type}.
(** One call of [write] in a given state of the writer. *)
Variable step : W -> bytes -> wanswer * W.
(** How [write!] cuts the text of an address into pieces: it depends on the
    standard library's [Display] implementations, and is left open. *)
Variable cut : bytes -> list bytes.

(** A writing computation: how it ends, what the writer took, its new state. *)
Definition writing := nat -> W -> wend * bytes * W.
Definition w_ok : writing := fun _ w => (WDone, [], w).
(** [a?; b] *)
Definition w_then (a b : writing) : writing := fun fuel w =>
  match a fuel w with
  | (WDone, got, w) => let '(e, got', w) := b fuel w in (e, got ++ got', w)
  | (e, got, w) => (e, got, w)
  end.

(** [io::Write::write_all], the default method (Rust 1.42): [Ok(0)] is the error
    [WriteZero]; [&buf[n..]] panics if [n] is too large. *)
Fixpoint write_all_fuel (fuel : nat) (buf : bytes) (w : W) : wend * bytes * W :=
  match buf with
  | [] => (WDone, [], w)
  | _ :: _ =>
      match fuel with
      | O => (WNoFuel, [], w)
      | S fuel' =>
          match step w buf with
          | (WOk O, w) => (WFailed, [], w)
          | (WOk n, w) =>
              if Nat.ltb (length buf) n then (WPanic, buf, w)
              else let '(e, got, w) := write_all_fuel fuel' (skipn n buf) w in (e, firstn n buf ++ got, w)
          | (WInterrupted, w) => write_all_fuel fuel' buf w
          | (WErr, w) => (WFailed, [], w)
          end
      end
  end.
Definition write_all (buf : bytes) : writing := fun fuel w => write_all_fuel fuel buf w.
(** [write!(w, ..)]: [write_all] for every piece, up to the first error. *)
Fixpoint write_pieces (l : list bytes) : writing :=
  match l with [] => w_ok | b :: l' => w_then (write_all b) (write_pieces l') end.
Definition write_fmt (text : bytes) : writing := write_pieces (cut text).

(** [Sendable for SmtpString] (smtpstring.rs:69-73) *)
Definition smtp_send_to (s : bytes) : writing := write_all s.
(** [Sendable for Domain] (domain.rs:32-41) *)
Definition domain_send_to (d : domain) : writing :=
  match d with
  | Host s => write_all s
  | Addr4 a => write_fmt (s2b "[" ++ show_ipv4 a ++ s2b "]")
  | Addr6 a => write_fmt (s2b "[IPv6:" ++ show_ipv6 a ++ s2b "]")
  end.
(** [Sendable for Email] (email.rs:84-94) *)
Definition email_send_to (e : email) : writing :=
  w_then (write_all (em_localpart e))
  match em_hostname e with
  | Some host => w_then (write_all (s2b "@")) (domain_send_to host)
  | None => w_ok
  end.
(** [Sendable for Option<Email>] (email.rs:96-104) *)
Definition opt_email_send_to (e : option email) : writing :=
  match e with Some e => email_send_to e | None => w_ok end.
(** [Sendable for Parameters] (parameters.rs:17-29); the list is in the order of
    the map's iterator. *)
Fixpoint params_send_to (m : parameters) : writing :=
  match m with
  | [] => w_ok
  | (k, v) :: m' =>
      w_then (write_all (s2b " "))
      (w_then (smtp_send_to k)
      (w_then (match v with Some v => w_then (write_all (s2b "=")) (smtp_send_to v) | None => w_ok end)
              (params_send_to m')))
  end.
(** The commands made of a verb and a text: ehlo/mod.rs:25-29, helo/mod.rs:25-29,
    expn/mod.rs:20-24, help/mod.rs:20-24, noop/mod.rs:20-24, vrfy/mod.rs:20-24 *)
Definition verb_send_to (verb : bytes) (arg : writing) : writing :=
  w_then (write_all verb) (w_then arg (write_all CRLF)).
(** [MailCommand::send_to], [RcptCommand::send_to] (mail/mod.rs:25-33,
    rcpt/mod.rs:25-33) *)
Definition path_send_to (verb : bytes) (arg : writing) (p : parameters) : writing :=
  w_then (write_all verb)
  (w_then arg
  (w_then (write_all (s2b ">"))
  (w_then (params_send_to p) (write_all CRLF)))).
(** [Command::send_to] (command.rs:46-60) *)
Definition command_send_to (c : command) : writing :=
  match c with
  | Data => write_all (s2b "DATA" ++ CRLF)                                 (* data/mod.rs:23-25 *)
  | Ehlo d => verb_send_to (s2b "EHLO ") (domain_send_to d)
  | Expn s => verb_send_to (s2b "EXPN ") (write_all s)
  | Helo d => verb_send_to (s2b "HELO ") (domain_send_to d)
  | Help s => verb_send_to (s2b "HELP ") (write_all s)
  | Mail f p => path_send_to (s2b "MAIL FROM:<") (opt_email_send_to f) p
  | Noop s => verb_send_to (s2b "NOOP ") (write_all s)
  | Quit => write_all (s2b "QUIT" ++ CRLF)                                 (* quit/mod.rs:17-19 *)
  | Rcpt t p => path_send_to (s2b "RCPT TO:<") (email_send_to t) p
  | Rset => write_all (s2b "RSET" ++ CRLF)                                 (* rset/mod.rs:17-19 *)
  | Vrfy s => verb_send_to (s2b "VRFY ") (write_all s)
  end.
(** [ReplyLine::send_to] (reply.rs:112-126) *)
Definition reply_send_to (r : reply_line) : writing :=
  let code := rl_code r in
  w_then (write_all [ ((code mod 1000) / 100 + 48)%N; ((code mod 100) / 10 + 48)%N; (code mod 10 + 48)%N ])
  (w_then (write_all (if rl_last r then s2b " " else s2b "-"))
  (w_then (write_all (rl_line r)) (write_all CRLF))).
End Write.

(** [io::Write for Vec<u8>]: takes everything. *)
Definition vec_step (w : unit) (b : bytes) : wanswer * unit := (WOk (length b), tt).
(** [SmtpString::from_sendable] (smtpstring.rs:40-44), on the [send_to] of its
    argument; [None] is [Err(_)]. *)
Definition from_sendable (send_to : @writing unit) (fuel : nat) : option bytes :=
  match send_to fuel tt with
  | (WDone, v, _) => Some v
  | _ => None
  end.

(** [BytesMut::writer()] (bytes 0.4, [Writer<B>]): takes [min(remaining, len)]
    bytes; the state is the room that is left. *)
Definition bytesmut_step (room : nat) (b : bytes) : wanswer * nat :=
  let n := min room (length b) in (WOk n, room - n).
