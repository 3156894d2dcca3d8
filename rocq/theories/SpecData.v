(** Specification of SMTP message transfer (RFC 5321, 4.5.2), independent of the
    state machines of the code: everything is said in terms of lines. *)
From Verif Require Import Bytes Stream.

(** The bytes a stream still has to give, pushed-back item first. *)
Definition ev_bytes (e : event) : bytes := match e with Pend => [] | Chunk b => b end.
Definition src_bytes (s : src) : bytes := concat (map ev_bytes (src_events s)).
Definition unread (p : prependable) : bytes :=
  match pr_prepended p with Some b => b | None => [] end ++ src_bytes (pr_stream p).

(** [wire] carried by a stream in some packets, with [Pending] anywhere. *)
Definition carries (evs : list event) (wire : bytes) : Prop := concat (map ev_bytes evs) = wire.

(** [l] contains [sub] as consecutive bytes. *)
Definition contains (sub l : bytes) : Prop := exists u v, l = u ++ sub ++ v.
(** The content of a line: no CRLF inside. *)
Definition is_line (l : bytes) : Prop := ~ contains CRLF l.

(** Lines, each ended by CRLF. *)
Definition unlines (ls : list bytes) : bytes := concat (map (fun l => l ++ CRLF) ls).

(** Transparency: the sender doubles a leading dot, the receiver removes one. *)
Definition dot_stuff (l : bytes) : bytes :=
  match l with c :: _ => if (c =? DOT)%N then DOT :: l else l | [] => [] end.
Definition dot_unstuff (l : bytes) : bytes :=
  match l with c :: l' => if (c =? DOT)%N then l' else l | [] => [] end.

(** The line that ends a message. *)
Definition end_line : bytes := [DOT].

(** [wire] is a complete message whose text is [out], followed by [rest]. *)
Definition transfer (wire out rest : bytes) : Prop :=
  exists ls,
    Forall is_line ls /\ Forall (fun l => l <> end_line) ls
    /\ wire = unlines ls ++ (end_line ++ CRLF) ++ rest
    /\ out = unlines (map dot_unstuff ls).

(** What can be given to the reader of a last, unterminated, line: nothing as
    long as it may still become the end line. *)
Definition undecided (t : bytes) : Prop := t = [DOT] \/ t = [DOT; CR].

(** [wire] stops before the end of the message, its text so far is [out]. *)
Definition interrupted (wire out : bytes) : Prop :=
  exists ls t,
    Forall is_line ls /\ Forall (fun l => l <> end_line) ls /\ is_line t
    /\ wire = unlines ls ++ t
    /\ ((undecided t /\ out = unlines (map dot_unstuff ls))
        \/ (~ undecided t /\ out = unlines (map dot_unstuff ls) ++ dot_unstuff t)).

(** [wire] is the encoding of the message [m]. *)
Definition message_encoding (m wire : bytes) : Prop :=
  exists ls t,
    Forall is_line ls /\ is_line t /\ m = unlines ls ++ t
    /\ wire = unlines (map dot_stuff ls)
              ++ (match t with [] => [] | _ => dot_stuff t ++ CRLF end)
              ++ end_line ++ CRLF.

(** What the receiver gets for the message [m]: [m], with CRLF added after a
    last unterminated line. *)
Definition normalised (m out : bytes) : Prop :=
  ((m = [] \/ exists m', m = m' ++ CRLF) /\ out = m)
  \/ (~ (m = [] \/ exists m', m = m' ++ CRLF) /\ out = m ++ CRLF).

(** [polled p out last d]: [d] is [DataStream::new(p)] after some polls, none of
    them after a [None]; [out] is what they gave, [last] the last answer. *)
Inductive polled (p : prependable) : bytes -> option ds_poll_result -> datastream -> Prop :=
| polled_start : polled p [] None (ds_new p)
| polled_step out last d r d' :
    polled p out last d -> last <> Some (DReady None) -> ds_poll d = (r, d') ->
    polled p (out ++ match r with DReady (Some b) => b | _ => [] end) (Some r) d'.

(** The items of a stream, in order. *)
Fixpoint chunks (evs : list event) : list bytes :=
  match evs with [] => [] | Pend :: e => chunks e | Chunk b :: e => b :: chunks e end.
