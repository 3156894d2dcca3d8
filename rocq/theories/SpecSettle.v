(** Specification of a client and a server that take turns: the client sends one
    thing, reads one reply, and goes on by its code. *)
From Verif Require Import Bytes Nom Message Stream SpecData SpecGrammar SpecReply Interact SpecSession SpecE2E SpecRelay SpecAgree.

(** What a client adds to the commands, and how it writes texts. *)
Record client := Client {
  cl_mail : option email -> parameters;
  cl_rcpt : email -> parameters;
  cl_text : bytes -> bytes
}.
Definition says_mail (cl : client) (f : option email) : command := Mail f (cl_mail cl f).
Definition says_rcpt (cl : client) (t : email) : command := Rcpt t (cl_rcpt cl t).
(** It can write down these mails, and writes texts as the sink does. *)
Definition can_send (cl : client) (m : a_mail) : Prop :=
  let '(f, tos, text) := m in
  wf_command (says_mail cl f) /\ Forall (fun t => wf_command (says_rcpt cl t)) tos /\ sent_as text (cl_text cl text).

(** [settles cl st mails turns delivered]: a client in the state [st], with [mails]
    to send after that, has had these turns (what it sent, the code it then read);
    it is done, and takes the mails [delivered] for delivered.  It stops early in
    two cases only: the server has taken no recipient of the mail, or has refused
    the text (there is no way back from there in this protocol: RSET is not
    implemented). *)
Inductive settles (cl : client) : client_state -> list a_mail -> list (bytes * N) -> list a_mail -> Prop :=
| s_done : settles cl None [] [] []
| s_sender_taken f tos text mails code turns del : positive code ->
    settles cl (Some (f, [], tos, text)) mails turns del ->
    settles cl None ((f, tos, text) :: mails) ((command_send (says_mail cl f), code) :: turns) del
| s_sender_refused f tos text mails code turns del : ~ positive code ->
    settles cl None mails turns del ->
    settles cl None ((f, tos, text) :: mails) ((command_send (says_mail cl f), code) :: turns) del
| s_recipient_taken f taken t todo text mails code turns del : positive code ->
    settles cl (Some (f, taken ++ [t], todo, text)) mails turns del ->
    settles cl (Some (f, taken, t :: todo, text)) mails ((command_send (says_rcpt cl t), code) :: turns) del
| s_recipient_refused f taken t todo text mails code turns del : ~ positive code ->
    settles cl (Some (f, taken, todo, text)) mails turns del ->
    settles cl (Some (f, taken, t :: todo, text)) mails ((command_send (says_rcpt cl t), code) :: turns) del
| s_no_recipient f text mails : settles cl (Some (f, [], [], text)) mails [] []
| s_text_refused f taken text mails code : taken <> [] -> ~ go_on code ->
    settles cl (Some (f, taken, [], text)) mails [(command_send Data, code)] []
| s_delivered f taken text mails code verdict turns del : taken <> [] -> go_on code ->
    positive verdict -> settles cl None mails turns del ->
    settles cl (Some (f, taken, [], text)) mails ((command_send Data, code) :: (cl_text cl text, verdict) :: turns)
            ((f, taken, text) :: del)
| s_rejected f taken text mails code verdict turns del : taken <> [] -> go_on code ->
    ~ positive verdict -> settles cl None mails turns del ->
    settles cl (Some (f, taken, [], text)) mails ((command_send Data, code) :: (cl_text cl text, verdict) :: turns) del.

(** The bytes that were written are replies with these codes, and nothing else. *)
Definition replies_are (out : bytes) (codes : list N) : Prop :=
  exists bs, out = concat bs /\ Forall2 a_reply codes bs.

(** The network: it cuts what is sent into packets, with any delays, depending on
    all that was sent before. *)
Definition network : Type := list bytes -> bytes -> list event.
Definition faithful (net : network) : Prop := forall past b, carries (net past b) b.
Fixpoint packets (net : network) (past sends : list bytes) : list event :=
  match sends with [] => [] | b :: sends => net past b ++ packets net (past ++ [b]) sends end.
