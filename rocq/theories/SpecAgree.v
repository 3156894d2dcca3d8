(** Specification of a client that goes by the replies it reads: what it sends,
    what it takes for delivered, and what it cannot know. *)
From Verif Require Import Bytes Nom Message Stream SpecData SpecGrammar SpecReply Interact SpecSession SpecE2E SpecRelay.

(** The meaning of reply codes (RFC 5321, 4.2.1). *)
Definition positive (code : N) : Prop := (200 <= code < 300)%N.
Definition go_on (code : N) : Prop := (300 <= code < 400)%N.
Definition negative (code : N) : Prop := (400 <= code < 600)%N.

(** One reply on the wire: continued lines, then a last one. *)
Definition a_reply (code : N) (b : bytes) : Prop :=
  exists ts ws, ts <> [] /\ Forall is_line ts /\ reply_lines code ts ws /\ b = concat ws.
(** The client has read replies with these codes; more may be on its way. *)
Definition reads (out : bytes) (codes : list N) : Prop :=
  exists bs unread_part, out = concat bs ++ unread_part /\ Forall2 a_reply codes bs.

(** The text as the sink encodes it. *)
Definition sent_as (text enc : bytes) : Prop :=
  exists ok chunks s sent, concat chunks = text
  /\ sink_send_all ok sink_new chunks = (s, SkOk) /\ sink_end ok s = (sent, SkOk) /\ enc = concat sent.

(** Where the client is: between mails, or in one: sender, recipients the server
    took, recipients still to name, text. *)
Definition client_state : Type := option (option email * list email * list email * bytes).

(** [talks st mails codes sent delivered doubt]: a client in the state [st], with
    [mails] to send after that, that reads the replies [codes], sends [sent],
    each command only when the reply to the one before has been read; in the end it
    takes the mails [delivered] for delivered and is in doubt about [doubt]. *)
Inductive talks : client_state -> list a_mail -> list N -> bytes -> list a_mail -> list a_mail -> Prop :=
| t_stop st mails : talks st mails [] [] [] []
| t_leave st mails cmd : wf_command cmd -> talks st mails [] (command_send cmd) [] []
| t_other st mails cmd code codes sent del dbt : other_command cmd -> wf_command cmd ->
    talks st mails codes sent del dbt ->
    talks st mails (code :: codes) (command_send cmd ++ sent) del dbt
| t_sender_taken f ps tos text mails code codes sent del dbt : wf_command (Mail f ps) -> positive code ->
    talks (Some (f, [], tos, text)) mails codes sent del dbt ->
    talks None ((f, tos, text) :: mails) (code :: codes) (command_send (Mail f ps) ++ sent) del dbt
| t_sender_refused f ps tos text mails code codes sent del dbt : wf_command (Mail f ps) -> ~ positive code ->
    talks None mails codes sent del dbt ->
    talks None ((f, tos, text) :: mails) (code :: codes) (command_send (Mail f ps) ++ sent) del dbt
| t_recipient_taken f taken t ps todo text mails code codes sent del dbt : wf_command (Rcpt t ps) -> positive code ->
    talks (Some (f, taken ++ [t], todo, text)) mails codes sent del dbt ->
    talks (Some (f, taken, t :: todo, text)) mails (code :: codes) (command_send (Rcpt t ps) ++ sent) del dbt
| t_recipient_refused f taken t ps todo text mails code codes sent del dbt : wf_command (Rcpt t ps) -> ~ positive code ->
    talks (Some (f, taken, todo, text)) mails codes sent del dbt ->
    talks (Some (f, taken, t :: todo, text)) mails (code :: codes) (command_send (Rcpt t ps) ++ sent) del dbt
| t_text_refused f taken text mails code codes sent del dbt : taken <> [] -> ~ go_on code ->
    talks (Some (f, taken, [], text)) mails codes sent del dbt ->
    talks (Some (f, taken, [], text)) mails (code :: codes) (command_send Data ++ sent) del dbt
| t_text_cut f taken text mails code part missing : taken <> [] -> go_on code ->
    sent_as text (part ++ missing) -> missing <> [] ->
    talks (Some (f, taken, [], text)) mails [code] (command_send Data ++ part) [] []
| t_text_sent f taken text mails code enc : taken <> [] -> go_on code -> sent_as text enc ->
    talks (Some (f, taken, [], text)) mails [code] (command_send Data ++ enc) [] [(f, taken, text)]
| t_delivered f taken text mails code enc verdict codes sent del dbt : taken <> [] -> go_on code -> sent_as text enc ->
    positive verdict -> talks None mails codes sent del dbt ->
    talks (Some (f, taken, [], text)) mails (code :: verdict :: codes) (command_send Data ++ enc ++ sent)
          ((f, taken, text) :: del) dbt
| t_text_rejected f taken text mails code enc verdict codes sent del dbt : taken <> [] -> go_on code -> sent_as text enc ->
    ~ positive verdict -> talks None mails codes sent del dbt ->
    talks (Some (f, taken, [], text)) mails (code :: verdict :: codes) (command_send Data ++ enc ++ sent) del dbt.

(** A configuration whose replies say what it did, with a text, and that does not
    accept a message that was cut. *)
Record honest {C U} (cfg : config C U) : Prop := Honest {
  hn_mail_okay : forall c, positive (fst (cf_mail_okay cfg c));
  hn_rcpt_okay : forall c, positive (fst (cf_rcpt_okay cfg c));
  hn_data_okay : forall c, go_on (fst (cf_data_okay cfg c));
  hn_accepted : forall c, positive (fst (cf_mail_accepted cfg c));
  hn_from : forall c u f, on_refusal (fun r => negative (fst r)) (fst (fst (fst (cf_filter_from cfg c u f))));
  hn_to : forall c u m t, on_refusal (fun r => negative (fst r)) (fst (fst (fst (fst (cf_filter_to cfg c u m t)))));
  hn_data : forall c u m, on_refusal (fun r => negative (fst r)) (fst (fst (fst (cf_filter_data cfg c u m))));
  hn_handle : forall c u m, handler_replies (fun r => negative (fst r)) (cf_handle_mail cfg c u m);
  hn_whole : forall c u m text d c' u', yields (cf_handle_mail cfg c u m) text false (d, c', u') -> d <> Accept;
  hn_texts : all_replies (fun r => snd r <> []) cfg
}.

(** The mail received for the mail sent: the text may have got its last CRLF. *)
Definition received_as (m m' : a_mail) : Prop := fst m' = fst m /\ normalised (snd m) (snd m').
