(** Model of the smtp-server crate: sendreply.rs, config.rs, decision.rs,
    metadata.rs and interact.rs.

    An [async fn] is modelled by the sequence of its effects: the only places
    where it can be suspended are polls of the reader and of the writer, and a
    poll that answers [Pending] is repeated.  User code (the configuration and
    the writer) is arbitrary and deterministic; it may neither panic nor hang. *)
From Verif Require Import Bytes Nom SmtpString Message Reply Stream.

(** decision.rs:4-14, [Refusal] inlined *)
Inductive decision := Accept | Reject (code : N) (msg : bytes).
(** metadata.rs:4-7 *)
Record mail_meta := Meta { mm_from : option email; mm_to : list email }.

(** What a [handle_mail] implementation does with its [DataStream]: read items
    until [stop items_so_far] holds or the stream is over (the flag), call
    [complete] (the flag: it returned [Ok]), call [poll_next] once without waiting
    for it to be ready, return.  It can do so any number of times in any order;
    every terminating deterministic user of the stream is of this form. *)
Inductive handler (C U : Type) :=
| HRead (stop : list bytes -> bool) (k : list bytes -> bool -> handler C U)
| HComplete (k : bool -> handler C U)
| HPoll (k : poll (option bytes) -> handler C U)
| HDone (d : decision) (c : C) (u : U).
Arguments HRead {C U} _ _.
Arguments HComplete {C U} _.
Arguments HPoll {C U} _.
Arguments HDone {C U} _ _ _.

(** The [Config] trait (config.rs:14-130).  [C] is the implementing type (its
    [&mut self] is threaded through), [U] the user's connection metadata
    ([ConnectionMetadata], metadata.rs:9-11); arguments passed as [&mut] are
    returned.  Only the methods [interact] calls; those with a default body are
    built by [default_config] below. *)
Record config (C U : Type) := Config {
  cf_new_mail : C -> C;
  cf_filter_from : C -> U -> option email -> decision * C * U * option email;
  cf_filter_to : C -> U -> mail_meta -> email -> decision * C * U * mail_meta * email;
  cf_filter_data : C -> U -> mail_meta -> decision * C * U * mail_meta;
  cf_handle_mail : C -> U -> mail_meta -> handler C U;
  cf_welcome_banner : C -> N * bytes;
  cf_mail_okay : C -> N * bytes;
  cf_rcpt_okay : C -> N * bytes;
  cf_data_okay : C -> N * bytes;
  cf_mail_accepted : C -> N * bytes;
  cf_already_in_mail : C -> N * bytes;
  cf_rcpt_before_mail : C -> N * bytes;
  cf_data_before_rcpt : C -> N * bytes;
  cf_data_before_mail : C -> N * bytes;
  cf_command_unimplemented : C -> N * bytes;
  cf_command_unrecognized : C -> N * bytes
}.
Arguments cf_new_mail {C U}.
Arguments cf_filter_from {C U}.
Arguments cf_filter_to {C U}.
Arguments cf_filter_data {C U}.
Arguments cf_handle_mail {C U}.
Arguments cf_welcome_banner {C U}.
Arguments cf_mail_okay {C U}.
Arguments cf_rcpt_okay {C U}.
Arguments cf_data_okay {C U}.
Arguments cf_mail_accepted {C U}.
Arguments cf_already_in_mail {C U}.
Arguments cf_rcpt_before_mail {C U}.
Arguments cf_data_before_rcpt {C U}.
Arguments cf_data_before_mail {C U}.
Arguments cf_command_unimplemented {C U}.
Arguments cf_command_unrecognized {C U}.

(** The default bodies: [okay] (config.rs:70-72), [bad_sequence] (93-98). *)
Definition default_okay : N * bytes := (OKAY, s2b "Okay").
Definition default_bad_sequence : N * bytes := (BAD_SEQUENCE, s2b "Bad sequence of commands").
(** [banner] (config.rs:57-59) *)
Definition default_banner : bytes := s2b "Service ready".
(** A [Config] that implements only the required methods (config.rs:19-30,
    44-55) and takes every default (config.rs:15-17, 32-39, 57-129). *)
Definition default_config {C U}
  (filter_from : C -> U -> option email -> decision * C * U * option email)
  (filter_to : C -> U -> mail_meta -> email -> decision * C * U * mail_meta * email)
  (handle_mail : C -> U -> mail_meta -> handler C U)
  (hostname : C -> bytes) : config C U := {|
  cf_new_mail := fun c => c;
  cf_filter_from := filter_from;
  cf_filter_to := filter_to;
  cf_filter_data := fun c u m => (Accept, c, u, m);
  cf_handle_mail := handle_mail;
  cf_welcome_banner := fun c =>
    (SERVICE_READY, smtp_add (smtp_add (hostname c) (s2b " ")) default_banner);
  cf_mail_okay := fun _ => default_okay;
  cf_rcpt_okay := fun _ => default_okay;
  cf_data_okay := fun _ => (START_MAIL_INPUT, s2b "Start mail input; end with <CRLF>.<CRLF>");
  cf_mail_accepted := fun _ => default_okay;
  cf_already_in_mail := fun _ => default_bad_sequence;
  cf_rcpt_before_mail := fun _ => default_bad_sequence;
  cf_data_before_rcpt := fun _ => default_bad_sequence;
  cf_data_before_mail := fun _ => default_bad_sequence;
  cf_command_unimplemented := fun _ => (COMMAND_UNIMPLEMENTED, s2b "Command not implemented");
  cf_command_unrecognized := fun _ => (COMMAND_UNRECOGNIZED, s2b "Command not recognized")
|}.

(** The user's [Sink<Bytes, Error = ()>], a state machine over [W]: [true] is
    [Ok(())], [false] is [Err(())]. *)
Record writer (W : Type) := Writer {
  w_ready : W -> bool * W;            (* poll_ready, until it is not Pending *)
  w_send : W -> bytes -> bool * W;    (* start_send *)
  w_flush : W -> bool * W             (* poll_flush, until it is not Pending *)
}.
Arguments w_ready {W}.
Arguments w_send {W}.
Arguments w_flush {W}.

(** What can be observed of a session, in order: items accepted by the writer
    and calls of the configuration with their arguments and results. *)
Inductive obs (U : Type) :=
| OWrite (b : bytes)
| ONewMail
| OFrom (u : U) (arg : option email) (d : decision) (u' : U) (arg' : option email)
| OTo (u : U) (m : mail_meta) (arg : email) (d : decision) (u' : U) (m' : mail_meta) (arg' : email)
| OFilterData (u : U) (m : mail_meta) (d : decision) (u' : U) (m' : mail_meta)
  (* a call of handle_mail: metadata, all the data it read, the results of its
     calls of complete, and its verdict and [u] if it returned *)
| OHandle (u : U) (m : mail_meta) (data : bytes) (completes : list bool)
          (verdict : option (decision * U)).
Arguments OWrite {U} _.
Arguments ONewMail {U}.
Arguments OFrom {U} _ _ _ _ _.
Arguments OTo {U} _ _ _ _ _ _ _.
Arguments OFilterData {U} _ _ _ _ _.
Arguments OHandle {U} _ _ _ _ _.

(** How a computation ended. [NoFuel] is an artefact of the model; it is
    proved never to happen. *)
Inductive outcome (A : Type) := Ret (a : A) | WriteErr | Panic | NoFuel.
Arguments Ret {A} _.
Arguments WriteErr {A}.
Arguments Panic {A}.
Arguments NoFuel {A}.

(** Reading items until [stop] or the end (see [handler]). *)
Fixpoint ds_read_until (fuel : nat) (stop : list bytes -> bool) (acc : list bytes) (d : datastream)
  : option (list bytes * bool) * datastream :=
  if stop acc then (Some (acc, false), d)
  else match fuel with
       | O => (None, d)
       | S fuel' =>
           match ds_next d with
           | (Some (Some b), d') => ds_read_until fuel' stop (acc ++ [b]) d'
           | (Some None, d') => (Some (acc, true), d')
           | (None, d') => (None, d')
           end
       end.

(** Running a handler on a stream: outcome, what it read, its [complete]s. *)
Fixpoint run_handler {C U} (h : handler C U) (d : datastream) (data : bytes) (cs : list bool)
  : outcome (decision * C * U) * bytes * list bool * datastream :=
  match h with
  | HRead stop k =>
      match ds_read_until (S (ds_size d)) stop [] d with
      | (Some (items, over), d') => run_handler (k items over) d' (data ++ concat items) cs
      | (None, d') => (NoFuel, data, cs, d')
      end
  | HComplete k =>
      match ds_complete d with
      | (CompleteOk, d') => run_handler (k true) d' data (cs ++ [true])
      | (CompleteErr, d') => run_handler (k false) d' data (cs ++ [false])
      | (CompletePanic, d') => (Panic, data, cs, d')
      end
  | HPoll k =>
      match ds_poll d with
      | (DReady x, d') => run_handler (k (Ready x)) d' (data ++ match x with Some b => b | None => [] end) cs
      | (DPending, d') => run_handler (k Pending) d' data cs
      | (DFuel, d') => (NoFuel, data, cs, d')
      end
  | HDone v c u => (Ret (v, c, u), data, cs, d)
  end.

Section Interact.
Context {C U W : Type}.
Variable cfg : config C U.
Variable wr : writer W.

(** The local variables of [interact]: [cfg], [conn_meta], [mail_meta],
    [reader], the user's writer, the reply line that [outgoing.with(..)] is
    working on, and the observations so far (ghost). *)
Record st := St {
  st_cfg : C; st_user : U; st_mail : option mail_meta; st_reader : prependable;
  st_w : W; st_with : option bytes; st_trace : list (obs U)
}.
Definition set_cfg (s : st) (c : C) : st :=
  St c (st_user s) (st_mail s) (st_reader s) (st_w s) (st_with s) (st_trace s).
Definition set_cu (s : st) (c : C) (u : U) : st :=
  St c u (st_mail s) (st_reader s) (st_w s) (st_with s) (st_trace s).
Definition set_mail (s : st) (m : option mail_meta) : st :=
  St (st_cfg s) (st_user s) m (st_reader s) (st_w s) (st_with s) (st_trace s).
Definition set_reader (s : st) (p : prependable) : st :=
  St (st_cfg s) (st_user s) (st_mail s) p (st_w s) (st_with s) (st_trace s).
Definition set_w (s : st) (w : W) : st :=
  St (st_cfg s) (st_user s) (st_mail s) (st_reader s) w (st_with s) (st_trace s).
Definition set_with (s : st) (b : option bytes) : st :=
  St (st_cfg s) (st_user s) (st_mail s) (st_reader s) (st_w s) b (st_trace s).
Definition log (s : st) (o : obs U) : st :=
  St (st_cfg s) (st_user s) (st_mail s) (st_reader s) (st_w s) (st_with s) (st_trace s ++ [o]).

(** [x.await?]: go on if it succeeded. *)
Definition andthen {A B} (x : outcome A * st) (k : A -> st -> outcome B * st) : outcome B * st :=
  match x with
  | (Ret a, s) => k a s
  | (WriteErr, s) => (WriteErr, s)
  | (Panic, s) => (Panic, s)
  | (NoFuel, s) => (NoFuel, s)
  end.

(** The writer is [outgoing.with(f)] (interact.rs:33-44), futures 0.3.4's
    [With].  [With::poll]: finish the line being worked on, hand it to the user's
    writer.  The closure (interact.rs:34-43) writes the line to a buffer of
    capacity [byte_len()]; its [unwrap] is modelled when the line is taken
    ([with_start_send]). *)
Definition with_poll (s : st) : outcome unit * st :=
  match st_with s with
  | None => (Ret tt, s)
  | Some b =>
      let s := set_with s None in
      match w_send wr (st_w s) b with
      | (true, w) => (Ret tt, log (set_w s w) (OWrite b))
      | (false, w) => (WriteErr, set_w s w)
      end
  end.
(** [With::poll_ready] *)
Definition with_poll_ready (s : st) : outcome unit * st :=
  andthen (with_poll s) (fun _ s =>
  match w_ready wr (st_w s) with
  | (true, w) => (Ret tt, set_w s w)
  | (false, w) => (WriteErr, set_w s w)
  end).
(** [With::start_send]; the buffer of [byte_len()] bytes must be large enough
    (interact.rs:36-39). *)
Definition with_start_send (s : st) (r : reply_line) : outcome unit * st :=
  if Nat.ltb (reply_byte_len r) (length (reply_send r)) then (Panic, s)
  else (Ret tt, set_with s (Some (reply_send r))).
(** [With::poll_flush] *)
Definition with_poll_flush (s : st) : outcome unit * st :=
  andthen (with_poll s) (fun _ s =>
  match w_flush wr (st_w s) with
  | (true, w) => (Ret tt, set_w s w)
  | (false, w) => (WriteErr, set_w s w)
  end).

(** [send_all] over the reply lines (sendreply.rs:19-31).  The iterator is lazy:
    a chunk is built into a line just before it is sent, and a chunk that cannot
    be is the [unwrap] panic of sendreply.rs:25-26.  The last chunk is
    [Last]/[Only], the others [First]/[Middle]. *)
Fixpoint send_chunks (code : N) (chunks : list bytes) (s : st) : outcome unit * st :=
  match chunks with
  | [] => with_poll_flush s
  | t :: chunks' =>
      match reply_build code (match chunks' with [] => true | _ => false end) t with
      | inr _ => (Panic, s)
      | inl r =>
          andthen (with_poll_ready s) (fun _ s =>
          andthen (with_start_send s r) (fun _ s =>
          send_chunks code chunks' s))
      end
  end.
(** [send_reply] (sendreply.rs:11-34) *)
Definition send_reply (reply : N * bytes) (s : st) : outcome unit * st :=
  match byte_chunks (snd reply) (N.of_nat MAX_LEN) with
  | None => (Panic, s)
  | Some chunks => send_chunks (fst reply) chunks s
  end.

(** [handle_line] (interact.rs:70-174), one definition per match arm. *)
(** interact.rs:84-107 *)
Definition handle_mail_cmd (from : option email) (s : st) : outcome unit * st :=
  match st_mail s with
  | Some _ => send_reply (cf_already_in_mail cfg (st_cfg s)) s
  | None =>
      let s := log (set_cfg s (cf_new_mail cfg (st_cfg s))) ONewMail in
      let '(d, c, u, from') := cf_filter_from cfg (st_cfg s) (st_user s) from in
      let s := log (set_cu s c u) (OFrom (st_user s) from d u from') in
      match d with
      | Accept =>
          andthen (send_reply (cf_mail_okay cfg (st_cfg s)) s) (fun _ s =>
          (Ret tt, set_mail s (Some (Meta from' []))))
      | Reject code msg => send_reply (code, msg) s
      end
  end.
(** interact.rs:108-125 *)
Definition handle_rcpt_cmd (to : email) (s : st) : outcome unit * st :=
  match st_mail s with
  | Some m =>
      let '(d, c, u, m', to') := cf_filter_to cfg (st_cfg s) (st_user s) m to in
      let s := log (set_mail (set_cu s c u) (Some m')) (OTo (st_user s) m to d u m' to') in
      match d with
      | Accept =>
          let s := set_mail s (Some (Meta (mm_from m') (mm_to m' ++ [to']))) in
          send_reply (cf_rcpt_okay cfg (st_cfg s)) s
      | Reject code msg => send_reply (code, msg) s
      end
  | None => send_reply (cf_rcpt_before_mail cfg (st_cfg s)) s
  end.
(** interact.rs:131-151: after the go-ahead *)
Definition receive_mail (m : mail_meta) (s : st) : outcome unit * st :=
  let '(r, data, cs, d) :=
    run_handler (cf_handle_mail cfg (st_cfg s) (st_user s) m) (ds_new (st_reader s)) [] [] in
  let s' := set_reader s (ds_source d) in
  match r with
  | Ret (v, c, u) =>
      let s' := log (set_cu s' c u) (OHandle (st_user s) m data cs (Some (v, u))) in
      if ds_was_completed d then
        match v with
        | Accept => send_reply (cf_mail_accepted cfg (st_cfg s')) s'
        | Reject code msg => send_reply (code, msg) s'
        end
      else (Panic, s')
  | Panic => (Panic, log s' (OHandle (st_user s) m data cs None))
  | WriteErr => (WriteErr, s')
  | NoFuel => (NoFuel, s')
  end.
(** interact.rs:126-164 *)
Definition handle_data_cmd (s : st) : outcome unit * st :=
  match st_mail s with
  | Some m =>
      let s := set_mail s None in
      match mm_to m with
      | [] =>
          andthen (send_reply (cf_data_before_rcpt cfg (st_cfg s)) s) (fun _ s =>
          (Ret tt, set_mail s (Some m)))
      | _ :: _ =>
          let '(d, c, u, m') := cf_filter_data cfg (st_cfg s) (st_user s) m in
          let s := log (set_cu s c u) (OFilterData (st_user s) m d u m') in
          match d with
          | Accept =>
              andthen (send_reply (cf_data_okay cfg (st_cfg s)) s) (fun _ s => receive_mail m' s)
          | Reject code msg =>
              andthen (send_reply (code, msg) s) (fun _ s => (Ret tt, set_mail s (Some m')))
          end
      end
  | None => send_reply (cf_data_before_mail cfg (st_cfg s)) s
  end.
(** interact.rs:82-174 *)
Definition handle_line (line : bytes) (s : st) : outcome unit * st :=
  match command_parse line with
  | POk (Mail from _) => handle_mail_cmd from s
  | POk (Rcpt to _) => handle_rcpt_cmd to s
  | POk Data => handle_data_cmd s
  | POk _ => send_reply (cf_command_unimplemented cfg (st_cfg s)) s
  | POutOfFuel => (NoFuel, s)
  | _ => send_reply (cf_command_unrecognized cfg (st_cfg s)) s
  end.

(** The loop of [interact] (interact.rs:54-64) *)
Fixpoint interact_loop (fuel : nat) (s : st) : outcome unit * st :=
  match fuel with
  | O => (NoFuel, s)
  | S fuel' =>
      match next_crlf_line (st_reader s) with
      | (Line l, p) =>
          andthen (handle_line l (set_reader s p)) (fun _ s => interact_loop fuel' s)
      | (NoLine, p) => (Ret tt, set_reader s p)
      | (LinePanic, p) => (Panic, set_reader s p)
      | (LineFuel, p) => (NoFuel, set_reader s p)
      end
  end.
(** [interact] (interact.rs:19-68).  Every line takes at least two bytes, so the
    number of bytes still to come bounds the number of lines. *)
Definition interact (incoming : src) (w : W) (c : C) (u : U) : outcome unit * st :=
  let s := St c u None (prep_new incoming) w None [] in
  andthen (send_reply (cf_welcome_banner cfg c) s) (fun _ s =>
  interact_loop (S (prep_size (st_reader s))) s).

End Interact.
