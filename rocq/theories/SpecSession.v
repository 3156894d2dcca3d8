(** Specification of a server session on the byte sequence of the connection,
    independent of packets, polling and the reader and writer state. *)
From Verif Require Import Bytes Nom Message Stream SpecData SpecReply Interact.

(** A handler that reads the whole message, completes the stream once, and then
    decides with [k], knowing the message and whether it was complete. *)
Definition reads_whole {C U} (h : handler C U) (k : bytes -> bool -> decision * C * U) : Prop :=
  exists stop f, h = HRead stop f /\ (forall l, stop l = false)
  /\ forall items, exists g, f items true = HComplete g
     /\ forall ok, g ok = let '(d, c, u) := k (concat items) ok in HDone d c u.
Definition whole_mail {C U} (cfg : config C U)
  (k : C -> U -> mail_meta -> bytes -> bool -> decision * C * U) : Prop :=
  forall c u m, reads_whole (cf_handle_mail cfg c u m) (k c u m).

(** A handler that reads its stream to the end, in any number of rounds, then
    completes it once: what the comment in config.rs:41-43 asks for. *)
Inductive drains {C U} : handler C U -> Prop :=
| drains_read stop f :
    (forall items, stop items = true -> drains (f items false)) ->
    (forall items, exists g, f items true = HComplete g /\ forall ok, exists d c u, g ok = HDone d c u) ->
    drains (HRead stop f).

(** What such a handler can answer, given the message [text] cut into items in
    some way, and whether the message was complete. *)
Inductive yields {C U} : handler C U -> bytes -> bool -> decision * C * U -> Prop :=
| yields_more stop f items text ok r :
    stop items = true -> yields (f items false) text ok r ->
    yields (HRead stop f) (concat items ++ text) ok r
| yields_end stop f items ok g d c u :
    f items true = HComplete g -> g ok = HDone d c u ->
    yields (HRead stop f) (concat items) ok (d, c, u).
Definition drain_mail {C U} (cfg : config C U) : Prop := forall c u m, drains (cf_handle_mail cfg c u m).

(** A handler that asks its stream for nothing more once it has been told that
    the stream is over or has called [complete] (then the flag is [true]); before,
    it can do anything: read a part, poll, complete too early or not at all. *)
Inductive stops_at_end {C U} : bool -> handler C U -> Prop :=
| stops_read stop f :
    (forall items, stop items = true -> stops_at_end false (f items false)) ->
    (forall items, stops_at_end true (f items true)) ->
    stops_at_end false (HRead stop f)
| stops_no_read stop f : stop [] = true -> stops_at_end true (f [] false) -> stops_at_end true (HRead stop f)
| stops_poll k :
    (forall r, r <> Ready None -> stops_at_end false (k r)) -> stops_at_end true (k (Ready None)) ->
    stops_at_end false (HPoll k)
| stops_complete over g : (forall ok, stops_at_end true (g ok)) -> stops_at_end over (HComplete g)
| stops_done over v c u : stops_at_end over (HDone v c u).
Definition stops_at_end_mail {C U} (cfg : config C U) : Prop :=
  forall c u m, stops_at_end false (cf_handle_mail cfg c u m).

(** [P] holds of every reply the configuration can ask for. *)
Definition on_refusal (P : N * bytes -> Prop) (d : decision) : Prop :=
  match d with Accept => True | Reject code msg => P (code, msg) end.
Fixpoint handler_replies {C U} (P : N * bytes -> Prop) (h : handler C U) : Prop :=
  match h with
  | HRead _ f => forall items over, handler_replies P (f items over)
  | HComplete g => forall ok, handler_replies P (g ok)
  | HPoll k => forall r, handler_replies P (k r)
  | HDone d _ _ => on_refusal P d
  end.
Record all_replies {C U} (P : N * bytes -> Prop) (cfg : config C U) : Prop := AllReplies {
  ar_banner : forall c, P (cf_welcome_banner cfg c);
  ar_mail_okay : forall c, P (cf_mail_okay cfg c);
  ar_rcpt_okay : forall c, P (cf_rcpt_okay cfg c);
  ar_data_okay : forall c, P (cf_data_okay cfg c);
  ar_mail_accepted : forall c, P (cf_mail_accepted cfg c);
  ar_already_in_mail : forall c, P (cf_already_in_mail cfg c);
  ar_rcpt_before_mail : forall c, P (cf_rcpt_before_mail cfg c);
  ar_data_before_rcpt : forall c, P (cf_data_before_rcpt cfg c);
  ar_data_before_mail : forall c, P (cf_data_before_mail cfg c);
  ar_unimplemented : forall c, P (cf_command_unimplemented cfg c);
  ar_unrecognized : forall c, P (cf_command_unrecognized cfg c);
  ar_from : forall c u f, on_refusal P (fst (fst (fst (cf_filter_from cfg c u f))));
  ar_to : forall c u m t, on_refusal P (fst (fst (fst (fst (cf_filter_to cfg c u m t)))));
  ar_filter_data : forall c u m, on_refusal P (fst (fst (fst (cf_filter_data cfg c u m))));
  ar_handle : forall c u m, handler_replies P (cf_handle_mail cfg c u m)
}.
(** Guaranteed by the types: [ReplyCode]s are below 1000, and strings are shorter
    than the address space (by far more than 506 bytes). *)
Definition sendable_reply (r : N * bytes) : Prop :=
  (fst r < 1000)%N /\ (N.of_nat (length (snd r)) + 506 <= 18446744073709551616)%N.
Definition printable_reply (r : N * bytes) : Prop := Forall printable (snd r).

Section Session.
Context {C U : Type}.
Variable cfg : config C U.

(** The configuration's own state, the user's, and the transaction. *)
Record sess := Sess { se_c : C; se_u : U; se_tx : option mail_meta }.

(** The writes of one reply. *)
Definition says (reply : N * bytes) (evs : list (obs U)) : Prop :=
  exists ws, full_reply (fst reply) (snd reply) ws /\ evs = map OWrite ws.

Definition other_command (c : command) : Prop :=
  match c with Mail _ _ | Rcpt _ _ | Data => False | _ => True end.

(** What a command line that does not start a mail transfer does. *)
Inductive reacts : sess -> bytes -> list (obs U) -> sess -> Prop :=
| re_mail_again c u m line f ps w :
    command_parse line = POk (Mail f ps) -> says (cf_already_in_mail cfg c) w ->
    reacts (Sess c u (Some m)) line w (Sess c u (Some m))
| re_mail_accepted c u line f ps c' u' f' w :
    command_parse line = POk (Mail f ps) ->
    cf_filter_from cfg (cf_new_mail cfg c) u f = (Accept, c', u', f') -> says (cf_mail_okay cfg c') w ->
    reacts (Sess c u None) line ([ONewMail; OFrom u f Accept u' f'] ++ w) (Sess c' u' (Some (Meta f' [])))
| re_mail_refused c u line f ps code msg c' u' f' w :
    command_parse line = POk (Mail f ps) ->
    cf_filter_from cfg (cf_new_mail cfg c) u f = (Reject code msg, c', u', f') -> says (code, msg) w ->
    reacts (Sess c u None) line ([ONewMail; OFrom u f (Reject code msg) u' f'] ++ w) (Sess c' u' None)
| re_rcpt_first c u line t ps w :
    command_parse line = POk (Rcpt t ps) -> says (cf_rcpt_before_mail cfg c) w ->
    reacts (Sess c u None) line w (Sess c u None)
| re_rcpt_accepted c u m line t ps c' u' m' t' w :
    command_parse line = POk (Rcpt t ps) ->
    cf_filter_to cfg c u m t = (Accept, c', u', m', t') -> says (cf_rcpt_okay cfg c') w ->
    reacts (Sess c u (Some m)) line ([OTo u m t Accept u' m' t'] ++ w)
           (Sess c' u' (Some (Meta (mm_from m') (mm_to m' ++ [t']))))
| re_rcpt_refused c u m line t ps code msg c' u' m' t' w :
    command_parse line = POk (Rcpt t ps) ->
    cf_filter_to cfg c u m t = (Reject code msg, c', u', m', t') -> says (code, msg) w ->
    reacts (Sess c u (Some m)) line ([OTo u m t (Reject code msg) u' m' t'] ++ w) (Sess c' u' (Some m'))
| re_data_first c u line w :
    command_parse line = POk Data -> says (cf_data_before_mail cfg c) w ->
    reacts (Sess c u None) line w (Sess c u None)
| re_data_no_rcpt c u m line w :
    command_parse line = POk Data -> mm_to m = [] -> says (cf_data_before_rcpt cfg c) w ->
    reacts (Sess c u (Some m)) line w (Sess c u (Some m))
| re_data_refused c u m line code msg c' u' m' w :
    command_parse line = POk Data -> mm_to m <> [] ->
    cf_filter_data cfg c u m = (Reject code msg, c', u', m') -> says (code, msg) w ->
    reacts (Sess c u (Some m)) line ([OFilterData u m (Reject code msg) u' m'] ++ w) (Sess c' u' (Some m'))
| re_unimplemented c u tx line cmd w :
    command_parse line = POk cmd -> other_command cmd -> says (cf_command_unimplemented cfg c) w ->
    reacts (Sess c u tx) line w (Sess c u tx)
| re_unrecognized c u tx line w :
    (forall cmd, command_parse line <> POk cmd) -> says (cf_command_unrecognized cfg c) w ->
    reacts (Sess c u tx) line w (Sess c u tx).

(** A DATA command that is given the go-ahead for the envelope [m']. *)
Inductive opens : sess -> bytes -> list (obs U) -> C -> U -> mail_meta -> Prop :=
| op_data c u m line c' u' m' w :
    command_parse line = POk Data -> mm_to m <> [] ->
    cf_filter_data cfg c u m = (Accept, c', u', m') -> says (cf_data_okay cfg c') w ->
    opens (Sess c u (Some m)) line ([OFilterData u m Accept u' m'] ++ w) c' u' m'.

(** The configuration is given the message [text] (complete or not) for the
    envelope [m] and its verdict is sent. *)
Inductive delivers : C -> U -> mail_meta -> bytes -> bool -> list (obs U) -> sess -> Prop :=
| de c u m text ok d c' u' w :
    yields (cf_handle_mail cfg c u m) text ok (d, c', u') ->
    says (match d with Accept => cf_mail_accepted cfg c' | Reject code msg => (code, msg) end) w ->
    delivers c u m text ok ([OHandle u m text [ok] (Some (d, u'))] ++ w) (Sess c' u' None).

(** A whole session on the incoming bytes. *)
Inductive dialogue : sess -> bytes -> list (obs U) -> sess -> Prop :=
| di_end s tail : is_line tail -> dialogue s tail [] s
| di_command s line rest evs s1 tr s2 :
    is_line line -> reacts s (line ++ CRLF) evs s1 -> dialogue s1 rest tr s2 ->
    dialogue s (line ++ CRLF ++ rest) (evs ++ tr) s2
| di_mail s line wire evs c u m text rest evs' s1 tr s2 :
    is_line line -> opens s (line ++ CRLF) evs c u m ->
    transfer wire text rest -> delivers c u m text true evs' s1 -> dialogue s1 rest tr s2 ->
    dialogue s (line ++ CRLF ++ wire) (evs ++ evs' ++ tr) s2
| di_cut s line wire evs c u m text evs' s1 :
    is_line line -> opens s (line ++ CRLF) evs c u m ->
    interrupted wire text -> delivers c u m text false evs' s1 ->
    dialogue s (line ++ CRLF ++ wire) (evs ++ evs') s1.
End Session.
Arguments Sess {C U} _ _ _.
Arguments se_c {C U} _.
Arguments se_u {C U} _.
Arguments se_tx {C U} _.

(** Everything but the writer and the trace. *)
Definition same_session {C U W} (s s' : @st C U W) : Prop :=
  st_cfg s' = st_cfg s /\ st_user s' = st_user s /\ st_mail s' = st_mail s /\ st_reader s' = st_reader s.

(** A writer that never fails. *)
Definition reliable {W} (wr : writer W) : Prop :=
  (forall w, fst (w_ready wr w) = true) /\ (forall w b, fst (w_send wr w b) = true)
  /\ (forall w, fst (w_flush wr w) = true).

(** Filters that leave the metadata alone. *)
Definition keeps_meta {C U} (cfg : config C U) : Prop :=
  (forall c u m t, snd (fst (cf_filter_to cfg c u m t)) = m) /\ (forall c u m, snd (cf_filter_data cfg c u m) = m).

(** A reply that can be sent without panic. *)
Definition good_reply (r : N * bytes) : Prop := sendable_reply r /\ printable_reply r.
