(** Vocabulary for the session properties C31-C39, independent of the model's
    helpers: only [obs], the list of what can be observed. *)
From Verif Require Import Bytes Nom Message Stream SpecData SpecReply Interact.

(** The reply [reply] is being sent: [ws] was written, everything if [all]. *)
Definition answered (reply : N * bytes) (ws : list bytes) (all : Prop) : Prop :=
  exists rest, full_reply (fst reply) (snd reply) (ws ++ rest) /\ (all -> rest = []).

Section Exchange.
Context {U : Type}.

(** ** Commands out of order (C32) *)
Inductive out_of_order {C} (cfg : config C U) (c : C) : option mail_meta -> command -> N * bytes -> Prop :=
| oo_second_mail m f ps : out_of_order cfg c (Some m) (Mail f ps) (cf_already_in_mail cfg c)
| oo_rcpt t ps : out_of_order cfg c None (Rcpt t ps) (cf_rcpt_before_mail cfg c)
| oo_data : out_of_order cfg c None Data (cf_data_before_mail cfg c)
| oo_data_no_rcpt m : mm_to m = [] -> out_of_order cfg c (Some m) Data (cf_data_before_rcpt cfg c).

(** ** Refusals (C34): command, callback, transaction after, refusal *)
Inductive refused {C} (cfg : config C U) (c : C) (u : U)
  : option mail_meta -> command -> list (obs U) -> option mail_meta -> N * bytes -> Prop :=
| rf_mail f ps code msg c' u' f' :
    cf_filter_from cfg (cf_new_mail cfg c) u f = (Reject code msg, c', u', f') ->
    refused cfg c u None (Mail f ps) [ONewMail; OFrom u f (Reject code msg) u' f'] None (code, msg)
| rf_rcpt m t ps code msg c' u' m' t' :
    cf_filter_to cfg c u m t = (Reject code msg, c', u', m', t') ->
    refused cfg c u (Some m) (Rcpt t ps) [OTo u m t (Reject code msg) u' m' t'] (Some m') (code, msg)
| rf_data m code msg c' u' m' : mm_to m <> [] ->
    cf_filter_data cfg c u m = (Reject code msg, c', u', m') ->
    refused cfg c u (Some m) Data [OFilterData u m (Reject code msg) u' m'] (Some m') (code, msg).

(** ** The envelope (C31) *)
Definition accepted_rcpt (o : obs U) : list email :=
  match o with OTo _ _ _ Accept _ _ t => [t] | _ => [] end.
Definition begins_or_ends (o : obs U) : Prop :=
  match o with OFrom _ _ _ _ _ | OHandle _ _ _ _ _ => True | _ => False end.
(** After [hist] a transaction is open: its sender is the result of the last
    MAIL, its recipients those accepted since, in order. *)
Definition open_transaction (hist : list (obs U)) (m : mail_meta) : Prop :=
  exists old u a u' f since, hist = old ++ OFrom u a Accept u' f :: since
  /\ Forall (fun o => ~ begins_or_ends o) since /\ m = Meta f (flat_map accepted_rcpt since).
(** The same when filters may rewrite the metadata they are given. *)
Definition tx_step (tx : option mail_meta) (o : obs U) : option mail_meta :=
  match o with
  | OFrom _ _ Accept _ f => Some (Meta f [])
  | OFrom _ _ (Reject _ _) _ _ => None
  | OTo _ _ _ Accept _ m t => Some (Meta (mm_from m) (mm_to m ++ [t]))
  | OTo _ _ _ (Reject _ _) _ m _ => Some m
  | OFilterData _ _ _ _ m => Some m
  | OHandle _ _ _ _ _ => None
  | OWrite _ | ONewMail => tx
  end.
Definition replay (hist : list (obs U)) : option mail_meta := fold_left tx_step hist None.

(** ** Exchanges (C33, C38) *)
(** One command line and what it caused; [content] is what followed the
    go-ahead up to and including the end line. *)
Inductive exchange :=
| XCommand (line : bytes) (evs : list (obs U))
| XMail (line : bytes) (before : list (obs U)) (content text : bytes) (after : list (obs U))
| XCut (line : bytes) (before : list (obs U)) (content text : bytes) (after : list (obs U)).
Definition x_in (x : exchange) : bytes :=
  match x with
  | XCommand line _ => line ++ CRLF
  | XMail line _ content _ _ | XCut line _ content _ _ => line ++ CRLF ++ content
  end.
Definition x_evs (x : exchange) : list (obs U) :=
  match x with
  | XCommand _ evs => evs
  | XMail _ before _ _ after | XCut _ before _ _ after => before ++ after
  end.
Definition is_cut (x : exchange) : Prop := match x with XCut _ _ _ _ _ => True | _ => False end.

(** [evs] ends with exactly one reply, which has the property [P], after
    callbacks of the configuration. *)
Definition is_write (o : obs U) : Prop := match o with OWrite _ => True | _ => False end.
Definition one_reply (P : N * bytes -> Prop) (evs : list (obs U)) : Prop :=
  exists calls code text ws, P (code, text) /\ evs = calls ++ map OWrite ws
  /\ Forall (fun o => ~ is_write o) calls /\ full_reply code text ws.
Definition replies_ok (P : N * bytes -> Prop) (x : exchange) : Prop :=
  match x with
  | XCommand _ evs => one_reply P evs
  | XMail _ before _ _ after | XCut _ before _ _ after => one_reply P before /\ one_reply P after
  end.

(** Every callback comes from the command on the line. *)
Definition call_of_line (line : bytes) (o : obs U) : Prop :=
  match o with
  | OWrite _ => True
  | ONewMail => exists f ps, command_parse (line ++ CRLF) = POk (Mail f ps)
  | OFrom _ f _ _ _ => exists ps, command_parse (line ++ CRLF) = POk (Mail f ps)
  | OTo _ _ t _ _ _ _ => exists ps, command_parse (line ++ CRLF) = POk (Rcpt t ps)
  | OFilterData _ _ _ _ _ => command_parse (line ++ CRLF) = POk Data
  | OHandle _ _ _ _ _ => False
  end.
Definition gives (text : bytes) (complete : bool) (evs : list (obs U)) : Prop :=
  exists u m v rest, evs = OHandle u m text [complete] (Some v) :: rest /\ Forall is_write rest.
Definition content_ok (x : exchange) : Prop :=
  match x with
  | XCommand line evs => is_line line /\ Forall (call_of_line line) evs
  | XMail line before content text after =>
      is_line line /\ command_parse (line ++ CRLF) = POk Data /\ Forall (call_of_line line) before
      /\ transfer content text [] /\ gives text true after
  | XCut line before content text after =>
      is_line line /\ command_parse (line ++ CRLF) = POk Data /\ Forall (call_of_line line) before
      /\ interrupted content text /\ gives text false after
  end.
(** Only the last exchange can be cut, and then nothing follows. *)
Definition cut_last (xs : list exchange) (tail : bytes) : Prop :=
  forall a x b, xs = a ++ x :: b -> is_cut x -> b = [] /\ tail = [].
(** The session is these exchanges, one after the other. *)
Definition partition (incoming : bytes) (evs : list (obs U)) (xs : list exchange) (tail : bytes) : Prop :=
  incoming = concat (map x_in xs) ++ tail /\ is_line tail /\ evs = concat (map x_evs xs) /\ cut_last xs tail.
End Exchange.
