(** Specification vocabulary for the amount of work: what is counted, against what. *)
From Verif Require Import Bytes Stream Work.

(** The number of packets among events of the incoming stream. *)
Fixpoint packets (evs : list event) : nat :=
  match evs with [] => 0 | Chunk _ :: evs => S (packets evs) | Pend :: evs => packets evs end.
(** The bytes of the packets. *)
Fixpoint event_bytes (evs : list event) : nat :=
  match evs with [] => 0 | Chunk b :: evs => length b + event_bytes evs | Pend :: evs => event_bytes evs end.

(** Calling [next_crlf_line] again and again on [p] gives the lines of [ls], each with the
    number of packets taken from the stream for it, leaves [p'], and compares [w] windows. *)
Inductive lines_read : prependable -> list (bytes * nat) -> prependable -> nat -> Prop :=
| lines_none p : lines_read p [] p 0
| lines_one p l p1 n taken ls p' w : next_crlf_line_counted p = (Line l, p1, n) ->
    src_events (pr_stream p) = taken ++ src_events (pr_stream p1) ->
    lines_read p1 ls p' w -> lines_read p ((l, packets taken) :: ls) p' (n + w).

(** Polling [d] again and again gives [rs], leaves [d'], and looks at [w] positions. *)
Inductive data_polled : datastream -> list ds_poll_result -> datastream -> nat -> Prop :=
| data_polled_none d : data_polled d [] d 0
| data_polled_one d r d1 n rs d' w : ds_poll_counted d = (r, d1, n) -> data_polled d1 rs d' w ->
    data_polled d (r :: rs) d' (n + w).
(** What a [DataStream] has not dealt with: its buffer, bytes pushed back, and the events
    of its source (each counts as one, plus its bytes). *)
Definition left_over (d : datastream) : nat :=
  length (ds_buf d)
  + match pr_prepended (ds_source d) with Some b => 1 + length b | None => 0 end
  + length (src_events (pr_stream (ds_source d))) + event_bytes (src_events (pr_stream (ds_source d))).
