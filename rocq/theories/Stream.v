(** Incoming streams, [Prependable], [DataSink], [DataStream],
    [next_crlf_line]. *)
From Verif Require Import Bytes.

(** * The incoming stream *)
(** What polling the user's [Stream<Item = BytesMut>] gives, in order: [Pend] is
    [Poll::Pending], [Chunk b] is [Poll::Ready(Some(b))]; after the last event
    the stream answers [Poll::Ready(None)]. *)
Inductive event := Pend | Chunk (b : bytes).

(** [src_ended]: the stream has answered [None]; [src_over]: number of polls made
    after that (ghost counter: polling a finished Rust stream is a contract
    violation). *)
Record src := Src { src_events : list event; src_ended : bool; src_over : nat }.
Definition src_of (evs : list event) : src := Src evs false 0.

Inductive poll (A : Type) := Pending | Ready (x : A).
Arguments Pending {A}.
Arguments Ready {A} _.

Definition src_poll (s : src) : poll (option bytes) * src :=
  match src_events s with
  | Pend :: evs => (Pending, Src evs (src_ended s) (src_over s))
  | Chunk b :: evs => (Ready (Some b), Src evs (src_ended s) (src_over s))
  | [] => (Ready None,
           Src [] true (if src_ended s then S (src_over s) else src_over s))
  end.

(** * Prependable (smtp-message/src/streamext/prependable.rs:5-8) *)
Record prependable := Prep { pr_stream : src; pr_prepended : option bytes }.
(** prependable.rs:11-16 *)
Definition prep_new (s : src) : prependable := Prep s None.
(** [prepend] (prependable.rs:19-26); [None] is [Err(())]. *)
Definition prep_prepend (p : prependable) (item : bytes) : option prependable :=
  match pr_prepended p with
  | Some _ => None
  | None => Some (Prep (pr_stream p) (Some item))
  end.
(** [poll_next] (prependable.rs:32-48) *)
Definition prep_poll (p : prependable) : poll (option bytes) * prependable :=
  match pr_prepended p with
  | Some item => (Ready (Some item), Prep (pr_stream p) None)
  | None => let '(r, s) := src_poll (pr_stream p) in (r, Prep s None)
  end.

(** [s.next().await]: poll until ready. *)
Fixpoint src_next (evs : list event) (ended : bool) (over : nat) : option bytes * src :=
  match evs with
  | Pend :: evs' => src_next evs' ended over
  | Chunk b :: evs' => (Some b, Src evs' ended over)
  | [] => (None, Src [] true (if ended then S over else over))
  end.
Definition prep_next (p : prependable) : option bytes * prependable :=
  match pr_prepended p with
  | Some item => (Some item, Prep (pr_stream p) None)
  | None =>
      let s := pr_stream p in
      let '(r, s') := src_next (src_events s) (src_ended s) (src_over s) in
      (r, Prep s' None)
  end.

(** * next_crlf_line (smtp-server/src/crlflines.rs:6-35) *)
Inductive line_result :=
| Line (l : bytes)
| NoLine
| LinePanic        (* an [unwrap] of [prepend] failed *)
| LineFuel.
Fixpoint next_crlf_line_loop (fuel : nat) (p : prependable) (buf : bytes)
  : line_result * prependable :=
  match fuel with
  | O => (LineFuel, p)
  | S fuel' =>
      match prep_next p with
      | (Some pkt, p') =>
          let buf := buf ++ pkt in
          match find_sub CRLF buf with
          | Some pos =>
              match prep_prepend p' (skipn (pos + 2) buf) with
              | Some p'' => (Line (firstn (pos + 2) buf), p'')
              | None => (LinePanic, p')
              end
          | None => next_crlf_line_loop fuel' p' buf
          end
      | (None, p') =>
          match prep_prepend p' buf with
          | Some p'' => (NoLine, p'')
          | None => (LinePanic, p')
          end
      end
  end.
Definition next_crlf_line (p : prependable) : line_result * prependable :=
  next_crlf_line_loop (length (src_events (pr_stream p)) + 2) p [].

(** * DataSink (smtp-message/src/data/sink.rs) *)
(** sink.rs:5-9 *)
Inductive sink_state := SkRunning | SkCrPassed | SkCrLfPassed.

(** The underlying [Sink<Bytes>]: [ok sent item] says what its [send(item).await]
    does ([poll_ready], [start_send], [poll_flush]), having taken the items [sent]:
    [Ok(())], an error before it has taken the item, or an error after. *)
Inductive put_answer := PutOk | PutRefused | PutTaken.
Definition sink_oracle := list bytes -> bytes -> put_answer.

(** The [for] loop (sink.rs:34-47): new state and [breakat]. *)
Fixpoint sink_scan (st : sink_state) (pos : nat) (item : bytes) : sink_state * option nat :=
  match item with
  | [] => (st, None)
  | c :: item' =>
      if (c =? CR)%N then sink_scan SkCrPassed (S pos) item'
      else match st with
           | SkCrPassed =>
               if (c =? LF)%N then sink_scan SkCrLfPassed (S pos) item'
               else sink_scan SkRunning (S pos) item'
           | SkCrLfPassed =>
               if (c =? DOT)%N then (SkRunning, Some pos)
               else sink_scan SkRunning (S pos) item'
           | SkRunning => sink_scan SkRunning (S pos) item'
           end
  end.

Record sink := Sink { sk_sent : list bytes; sk_state : sink_state }.
(** [DataSink::new] (sink.rs:19-24) *)
Definition sink_new : sink := Sink [] SkCrLfPassed.

Inductive sink_result := SkOk | SkErr | SkFuel.

(** [self.sink.send(b).await]: the items taken, and whether it returned [Ok(())] *)
Definition sink_put (ok : sink_oracle) (sent : list bytes) (b : bytes) : list bytes * bool :=
  match ok sent b with
  | PutOk => (sent ++ [b], true)
  | PutRefused => (sent, false)
  | PutTaken => (sent ++ [b], false)
  end.

(** [DataSink::send] (sink.rs:26-63) *)
Fixpoint sink_send_loop (fuel : nat) (ok : sink_oracle) (s : sink) (item : bytes)
  : sink * sink_result :=
  match fuel with
  | O => (s, SkFuel)
  | S fuel' =>
      let '(st, breakat) := sink_scan (sk_state s) 0 item in
      match breakat with
      | None =>
          match sink_put ok (sk_sent s) item with
          | (sent, true) => (Sink sent st, SkOk)
          | (sent, false) => (Sink sent st, SkErr)
          end
      | Some pos =>
          match sink_put ok (sk_sent s) (firstn (pos + 1) item) with
          | (sent, true) => sink_send_loop fuel' ok (Sink sent st) (skipn pos item)
          | (sent, false) => (Sink sent st, SkErr)
          end
      end
  end.
Definition sink_send (ok : sink_oracle) (s : sink) (item : bytes) : sink * sink_result :=
  sink_send_loop (length item + 2) ok s item.

(** [DataSink::end] (sink.rs:65-74) *)
Definition sink_end (ok : sink_oracle) (s : sink) : list bytes * sink_result :=
  let b := match sk_state s with
           | SkRunning => CRLF ++ [DOT] ++ CRLF
           | SkCrPassed => CRLF ++ [DOT] ++ CRLF
           | SkCrLfPassed => [DOT] ++ CRLF
           end in
  match sink_put ok (sk_sent s) b with
  | (sent, true) => (sent, SkOk)
  | (sent, false) => (sent, SkErr)
  end.

(** A caller that sends the pieces in turn, stopping at the first error. *)
Fixpoint sink_send_all (ok : sink_oracle) (s : sink) (items : list bytes) : sink * sink_result :=
  match items with
  | [] => (s, SkOk)
  | item :: items' =>
      match sink_send ok s item with
      | (s', SkOk) => sink_send_all ok s' items'
      | (s', r) => (s', r)
      end
  end.

(** * DataStream (smtp-message/src/data/stream.rs) *)
(** stream.rs:11-19 *)
Inductive ds_state := Running | CrPassed | CrLfPassed | Finished | EarlyFin | Completed.
(** stream.rs:39-47 *)
Record datastream := DS { ds_source : prependable; ds_st : ds_state; ds_buf : bytes }.
(** [DataStream::new] (stream.rs:53-59) *)
Definition ds_new (source : prependable) : datastream := DS source CrLfPassed [].

(** [complete] (stream.rs:63-82); [CompletePanic] is the failed [assert_eq!] or
    the failed [unwrap] of [prepend]. *)
Inductive complete_result := CompleteOk | CompleteErr | CompletePanic.
Definition ds_complete (d : datastream) : complete_result * datastream :=
  match ds_st d with
  | EarlyFin => (CompleteErr, DS (ds_source d) Completed (ds_buf d))
  | Finished =>
      match ds_buf d with
      | [] => (CompleteOk, DS (ds_source d) Completed [])
      | b => match prep_prepend (ds_source d) b with
             | Some p => (CompleteOk, DS p Completed [])
             | None => (CompletePanic, d)
             end
      end
  | _ => (CompletePanic, d)
  end.
(** [was_completed] (stream.rs:84-86) *)
Definition ds_was_completed (d : datastream) : bool :=
  match ds_st d with Completed => true | _ => false end.

(** stream.rs:104-109 *)
Inductive buf_split := Nowhere | Eof (n : nat) | Escape (n : nat) | Unknown (n : nat).

(** The loop over [windows(3)] (stream.rs:113-134). *)
Fixpoint scan_windows (st : ds_state) (idx : nat) (buf : bytes) : ds_state * buf_split :=
  match buf with
  | a :: ((b :: c :: _) as tl) =>
      if (a =? CR)%N then scan_windows CrPassed (S idx) tl
      else match st with
           | CrPassed =>
               if (a =? LF)%N then scan_windows CrLfPassed (S idx) tl
               else scan_windows Running (S idx) tl
           | CrLfPassed =>
               if (a =? DOT)%N then
                 if (b =? CR)%N && (c =? LF)%N then (st, Eof idx) else (st, Escape idx)
               else scan_windows Running (S idx) tl
           | _ => scan_windows Running (S idx) tl
           end
  | _ => (st, Nowhere)
  end.

(** The last two characters (stream.rs:140-157); [l] is the buffer length. *)
Definition scan_last2 (st : ds_state) (l : nat) (x y : N) : ds_state * buf_split :=
  match st with
  | CrLfPassed =>
      if (x =? DOT)%N then
        if (y =? CR)%N then (st, Unknown (l - 2)) else (st, Escape (l - 2))
      else if (x =? CR)%N && (y =? LF)%N then (CrLfPassed, Nowhere)
      else if (y =? CR)%N then (CrPassed, Nowhere)
      else (Running, Nowhere)
  | CrPassed =>
      if (x =? LF)%N && (y =? DOT)%N then (CrLfPassed, Unknown (l - 1))
      else if (x =? CR)%N && (y =? LF)%N then (CrLfPassed, Nowhere)
      else if (y =? CR)%N then (CrPassed, Nowhere)
      else (Running, Nowhere)
  | _ =>
      if (x =? CR)%N && (y =? LF)%N then (CrLfPassed, Nowhere)
      else if (y =? CR)%N then (CrPassed, Nowhere)
      else (Running, Nowhere)
  end.
(** A one-character buffer (stream.rs:158-169). *)
Definition scan_last1 (st : ds_state) (y : N) : ds_state * buf_split :=
  match st with
  | CrLfPassed =>
      if (y =? DOT)%N then (st, Unknown 0)
      else if (y =? CR)%N then (CrPassed, Nowhere)
      else (Running, Nowhere)
  | CrPassed =>
      if (y =? CR)%N then (CrPassed, Nowhere)
      else if (y =? LF)%N then (CrLfPassed, Nowhere)
      else (Running, Nowhere)
  | _ => if (y =? CR)%N then (CrPassed, Nowhere) else (Running, Nowhere)
  end.

(** stream.rs:110-171: new state and where to split. *)
Definition find_split (st : ds_state) (buf : bytes) : ds_state * buf_split :=
  let '(st1, split) := scan_windows st 0 buf in
  match split with
  | Nowhere =>
      let l := length buf in
      if Nat.leb 2 l then scan_last2 st1 l (nth (l - 2) buf 0%N) (nth (l - 1) buf 0%N)
      else if Nat.eqb l 1 then scan_last1 st1 (nth (l - 1) buf 0%N)
      else (st1, Nowhere)
  | _ => (st1, split)
  end.

(** One pass of the loop of [poll_next] up to the point where more data is
    needed (stream.rs:102-201): return an item, loop again, or read. *)
Inductive iter_result := IReturn (x : option bytes) | IContinue | IRead.
Definition ds_iter (d : datastream) : iter_result * datastream :=
  let '(st, split) := find_split (ds_st d) (ds_buf d) in
  let buf := ds_buf d in
  match split with
  | Nowhere =>
      match buf with
      | [] => (IRead, DS (ds_source d) st [])
      | _ :: _ => (IReturn (Some buf), DS (ds_source d) st [])
      end
  | Eof x =>
      let d' := DS (ds_source d) Finished (skipn (x + 3) buf) in
      match firstn x buf with
      | [] => (IReturn None, d')
      | res => (IReturn (Some res), d')
      end
  | Escape x =>
      let d' := DS (ds_source d) Running (skipn (x + 1) buf) in
      match firstn x buf with
      | [] => (IContinue, d')
      | res => (IReturn (Some res), d')
      end
  | Unknown x =>
      if Nat.ltb 0 x then (IReturn (Some (firstn x buf)), DS (ds_source d) st (skipn x buf))
      else (IRead, DS (ds_source d) st buf)
  end.

(** [poll_next] (stream.rs:94-226) *)
Inductive ds_poll_result := DReady (x : option bytes) | DPending | DFuel.
Fixpoint ds_poll_loop (fuel : nat) (d : datastream) : ds_poll_result * datastream :=
  match fuel with
  | O => (DFuel, d)
  | S fuel' =>
      match ds_iter d with
      | (IReturn x, d') => (DReady x, d')
      | (IContinue, d') => ds_poll_loop fuel' d'
      | (IRead, d') =>
          match prep_poll (ds_source d') with
          | (Pending, p) => (DPending, DS p (ds_st d') (ds_buf d'))
          | (Ready None, p) => (DReady None, DS p EarlyFin (ds_buf d'))
          | (Ready (Some b), p) => ds_poll_loop fuel' (DS p (ds_st d') (ds_buf d' ++ b))
          end
      end
  end.

(** Enough fuel: every pass consumes a buffered byte or an event. *)
Definition ev_size (e : event) : nat := match e with Pend => 1 | Chunk b => 1 + length b end.
Definition src_size (s : src) : nat := fold_right (fun e n => ev_size e + n) 0 (src_events s).
Definition prep_size (p : prependable) : nat :=
  match pr_prepended p with Some b => 1 + length b | None => 0 end + src_size (pr_stream p).
Definition ds_size (d : datastream) : nat := length (ds_buf d) + prep_size (ds_source d).

Definition ds_poll (d : datastream) : ds_poll_result * datastream :=
  match ds_st d with
  | Finished => (DReady None, d)
  | _ => ds_poll_loop (S (ds_size d)) d
  end.

(** [stream.next().await]: poll until ready. *)
Fixpoint ds_next_loop (fuel : nat) (d : datastream) : option (option bytes) * datastream :=
  match fuel with
  | O => (None, d)
  | S fuel' =>
      match ds_poll d with
      | (DReady x, d') => (Some x, d')
      | (DPending, d') => ds_next_loop fuel' d'
      | (DFuel, d') => (None, d')
      end
  end.
Definition ds_next (d : datastream) : option (option bytes) * datastream :=
  ds_next_loop (S (ds_size d)) d.

(** Reading items until [None] ([while let Some(i) = s.next().await], or
    [concat()]): the items. *)
Fixpoint ds_read_loop (fuel : nat) (d : datastream) : option (list bytes) * datastream :=
  match fuel with
  | O => (None, d)
  | S fuel' =>
      match ds_next d with
      | (Some (Some b), d') =>
          let '(r, d'') := ds_read_loop fuel' d' in (option_map (cons b) r, d'')
      | (Some None, d') => (Some [], d')
      | (None, d') => (None, d')
      end
  end.
Definition ds_read_all (d : datastream) : option (list bytes) * datastream :=
  ds_read_loop (S (ds_size d)) d.

(** The intended use of a [DataStream]: read everything, then [complete]. *)
Definition ds_session (d : datastream) : option (list bytes) * complete_result * datastream :=
  let '(items, d') := ds_read_all d in
  let '(r, d'') := ds_complete d' in
  (items, r, d'').

(** [n] polls in a row. *)
Fixpoint ds_polls (n : nat) (d : datastream) : list ds_poll_result * datastream :=
  match n with
  | O => ([], d)
  | S n' => let '(r, d') := ds_poll d in
            let '(rs, d'') := ds_polls n' d' in (r :: rs, d'')
  end.

(** Reading a [Prependable] to its end: the items. *)
Fixpoint prep_read_loop (fuel : nat) (p : prependable) : option (list bytes) * prependable :=
  match fuel with
  | O => (None, p)
  | S fuel' =>
      match prep_next p with
      | (Some b, p') => let '(r, p'') := prep_read_loop fuel' p' in (option_map (cons b) r, p'')
      | (None, p') => (Some [], p')
      end
  end.
Definition prep_read_all (p : prependable) : option (list bytes) * prependable :=
  prep_read_loop (length (src_events (pr_stream p)) + 2) p.

(** [n] calls of [next_crlf_line] in a row. *)
Fixpoint next_lines (n : nat) (p : prependable) : list line_result * prependable :=
  match n with
  | O => ([], p)
  | S n' => let '(r, p') := next_crlf_line p in
            let '(rs, p'') := next_lines n' p' in (r :: rs, p'')
  end.
