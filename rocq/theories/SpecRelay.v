(** Specification of passing mail on from server to server: what a server
    accepted is what the sending half of smtp-message is then given. *)
From Verif Require Import Bytes Nom Message Stream SpecData SpecGrammar SpecReply Interact SpecSession SpecE2E.

(** A mail as its user sees it: sender, recipients in order, text. *)
Definition a_mail : Type := option email * list email * bytes.

(** The mails a server took responsibility for: those whose text the stream
    reported as complete and that the handler accepted. *)
Definition accepted_mails {U} (tr : list (obs U)) : list a_mail :=
  flat_map (fun o => match o with
    | OHandle _ m text [true] (Some (Accept, _)) => [(mm_from m, mm_to m, text)]
    | _ => [] end) tr.

(** The filters may refuse, but hand on the addresses they were given. *)
Record rewrites_nothing {C U} (cfg : config C U) : Prop := RewritesNothing {
  rn_from : forall c u f, snd (cf_filter_from cfg c u f) = f;
  rn_to : forall c u m t, snd (fst (cf_filter_to cfg c u m t)) = m /\ snd (cf_filter_to cfg c u m t) = t;
  rn_data : forall c u m, snd (cf_filter_data cfg c u m) = m
}.
Definition lawful {C U} (cfg : config C U) : Prop :=
  drain_mail cfg /\ all_replies (fun r => sendable_reply r /\ printable_reply r) cfg.

(** A server whose configuration satisfies [P] is sent the bytes [wire], in some
    packets, and takes the mails [mails]. *)
Definition takes (P : forall C U, config C U -> Prop) (wire : bytes) (mails : list a_mail) : Prop :=
  exists C U W (cfg : config C U) (wr : writer W) evs w c u o s,
    P C U cfg /\ lawful cfg /\ reliable wr /\ carries evs wire
    /\ interact cfg wr (src_of evs) w c u = (o, s) /\ mails = accepted_mails (st_trace s).

(** A client sends the mails: it gives MAIL, RCPT and DATA the addresses, with
    any parameters, and the sink the text, in any pieces; between mails it may
    send commands without effect. *)
Inductive asked_to_send : list a_mail -> list job -> Prop :=
| as_nil : asked_to_send [] []
| as_other c mails js : asked_to_send mails js -> asked_to_send mails (JOther c :: js)
| as_mail from ps tos chunks mails js : asked_to_send mails js ->
    asked_to_send ((from, map fst tos, concat chunks) :: mails) (JMail from ps tos chunks :: js).
Definition sends_on (mails : list a_mail) (wire : bytes) : Prop :=
  exists jobs wires, asked_to_send mails jobs /\ Forall2 client_sends jobs wires /\ wire = concat wires.

(** From server to server: each sends on what it took, and the next accepts. *)
Inductive passed_on : nat -> list a_mail -> list a_mail -> Prop :=
| po_here mails : passed_on 0 mails mails
| po_hop n mails wire mails1 mails2 :
    sends_on mails wire -> takes (@accepting) wire mails1 -> passed_on n mails1 mails2 ->
    passed_on (S n) mails mails2.
