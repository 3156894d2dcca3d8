(** Specification of end-to-end delivery: what a client of the sending half of
    smtp-message sends, and what the server's user must then have been given. *)
From Verif Require Import Bytes Nom Message Reply Stream SpecData SpecGrammar SpecReply Interact SpecSession.

(** What the client does: commands without effect (EHLO, NOOP, ...) and mails,
    the text of a mail being given to the sink in chunks. *)
Inductive job :=
| JOther (c : command)
| JMail (from : option email) (ps : parameters) (tos : list (email * parameters)) (chunks : list bytes).

Inductive client_sends : job -> bytes -> Prop :=
| cs_other c : other_command c -> wf_command c -> client_sends (JOther c) (command_send c)
| cs_mail from ps tos chunks ok s sent :
    wf_command (Mail from ps) -> tos <> [] -> Forall (fun t => wf_command (Rcpt (fst t) (snd t))) tos ->
    sink_send_all ok sink_new chunks = (s, SkOk) -> sink_end ok s = (sent, SkOk) ->
    client_sends (JMail from ps tos chunks)
      (command_send (Mail from ps) ++ concat (map (fun t => command_send (Rcpt (fst t) (snd t))) tos)
       ++ command_send Data ++ concat sent).

(** A configuration that accepts everything and rewrites nothing. *)
Record accepting {C U} (cfg : config C U) : Prop := Accepting {
  acc_from : forall c u f, exists c' u', cf_filter_from cfg c u f = (Accept, c', u', f);
  acc_to : forall c u m t, exists c' u', cf_filter_to cfg c u m t = (Accept, c', u', m, t);
  acc_data : forall c u m, exists c' u', cf_filter_data cfg c u m = (Accept, c', u', m);
  acc_mail : forall c u m text d c' u', yields (cf_handle_mail cfg c u m) text true (d, c', u') -> d = Accept
}.

(** The calls of [handle_mail]: envelope, text, results of [complete], verdict. *)
Definition mails_given {U} (tr : list (obs U)) : list (mail_meta * bytes * list bool * option decision) :=
  flat_map (fun o => match o with OHandle _ m text cs v => [(m, text, cs, option_map fst v)] | _ => [] end) tr.
Inductive delivered : list job -> list (mail_meta * bytes * list bool * option decision) -> Prop :=
| dl_nil : delivered [] []
| dl_other c js hs : delivered js hs -> delivered (JOther c :: js) hs
| dl_mail from ps tos chunks text js hs :
    normalised (concat chunks) text -> delivered js hs ->
    delivered (JMail from ps tos chunks :: js) ((Meta from (map fst tos), text, [true], Some Accept) :: hs).

(** The replies: which of the configuration's, in order. *)
Definition replies_to {C U} (cfg : config C U) (j : job) : list (C -> N * bytes) :=
  match j with
  | JOther _ => [cf_command_unimplemented cfg]
  | JMail _ _ tos _ => cf_mail_okay cfg :: map (fun _ => cf_rcpt_okay cfg) tos ++ [cf_data_okay cfg; cf_mail_accepted cfg]
  end.
Definition written_items {U} (tr : list (obs U)) : list bytes :=
  flat_map (fun o => match o with OWrite b => [b] | _ => [] end) tr.
Definition are_replies {C} (kinds : list (C -> N * bytes)) (ws : list bytes) : Prop :=
  exists wss, ws = concat wss /\ Forall2 (fun k w => exists c, full_reply (fst (k c)) (snd (k c)) w) kinds wss.

(** What may have been given of a mail whose transmission was cut: nothing, or a
    beginning of it that was not reported as complete. *)
Inductive cut_mail : job -> list (mail_meta * bytes * list bool * option decision) -> Prop :=
| cm_nothing j : cut_mail j []
| cm_part from ps tos chunks text missing v : normalised (concat chunks) (text ++ missing) ->
    cut_mail (JMail from ps tos chunks) [(Meta from (map fst tos), text, [false], v)].
