(** The same functions as in [Stream.v], counting how often their loops look at a
    position of a buffer.  [C72_counting] shows that counting changes nothing. *)
From Verif Require Import Bytes Stream.

(** [buf.windows(2).position(|x| x == b"\r\n")] (smtp-server/src/crlflines.rs:20), with
    the number of windows it compares. *)
Fixpoint position_counted (buf : bytes) : option nat * nat :=
  match buf with
  | a :: ((b :: _) as tl) =>
      if (a =? CR)%N && (b =? LF)%N then (Some 0, 1)
      else let '(r, n) := position_counted tl in (option_map S r, S n)
  | _ => (None, 0)
  end.
(** [next_crlf_line] (crlflines.rs:6-35), with the number of windows compared. *)
Fixpoint line_loop_counted (fuel : nat) (p : prependable) (buf : bytes)
  : line_result * prependable * nat :=
  match fuel with
  | O => (LineFuel, p, 0)
  | S fuel' =>
      match prep_next p with
      | (Some pkt, p') =>
          let buf := buf ++ pkt in
          match position_counted buf with
          | (Some pos, n) =>
              match prep_prepend p' (skipn (pos + 2) buf) with
              | Some p'' => (Line (firstn (pos + 2) buf), p'', n)
              | None => (LinePanic, p', n)
              end
          | (None, n) => let '(r, n') := line_loop_counted fuel' p' buf in (r, n + n')
          end
      | (None, p') =>
          match prep_prepend p' buf with
          | Some p'' => (NoLine, p'', 0)
          | None => (LinePanic, p', 0)
          end
      end
  end.
Definition next_crlf_line_counted (p : prependable) : line_result * prependable * nat :=
  line_loop_counted (length (src_events (pr_stream p)) + 2) p [].

(** The loop over [windows(3)] (smtp-message/src/data/stream.rs:113-134), with the
    number of windows it looks at. *)
Fixpoint scan_windows_counted (st : ds_state) (idx : nat) (buf : bytes) : ds_state * buf_split * nat :=
  match buf with
  | a :: ((b :: c :: _) as tl) =>
      let go st := let '(r, n) := scan_windows_counted st (S idx) tl in (r, S n) in
      if (a =? CR)%N then go CrPassed
      else match st with
           | CrPassed => if (a =? LF)%N then go CrLfPassed else go Running
           | CrLfPassed =>
               if (a =? DOT)%N then
                 if (b =? CR)%N && (c =? LF)%N then (st, Eof idx, 1) else (st, Escape idx, 1)
               else go Running
           | _ => go Running
           end
  | _ => (st, Nowhere, 0)
  end.
(** One pass of the loop of [poll_next] (stream.rs:102-201) looks at these windows and, if
    nothing was found there, once at the last two characters (stream.rs:136-170). *)
Definition iter_count (d : datastream) : nat :=
  match scan_windows_counted (ds_st d) 0 (ds_buf d) with
  | (_, Nowhere, n) => n + 1
  | (_, _, n) => n
  end.
(** [poll_next] (stream.rs:94-226) *)
Fixpoint poll_loop_counted (fuel : nat) (d : datastream) : ds_poll_result * datastream * nat :=
  match fuel with
  | O => (DFuel, d, 0)
  | S fuel' =>
      let n := iter_count d in
      match ds_iter d with
      | (IReturn x, d') => (DReady x, d', n)
      | (IContinue, d') => let '(r, n') := poll_loop_counted fuel' d' in (r, n + n')
      | (IRead, d') =>
          match prep_poll (ds_source d') with
          | (Pending, p) => (DPending, DS p (ds_st d') (ds_buf d'), n)
          | (Ready None, p) => (DReady None, DS p EarlyFin (ds_buf d'), n)
          | (Ready (Some b), p) =>
              let '(r, n') := poll_loop_counted fuel' (DS p (ds_st d') (ds_buf d' ++ b)) in (r, n + n')
          end
      end
  end.
Definition ds_poll_counted (d : datastream) : ds_poll_result * datastream * nat :=
  match ds_st d with
  | Finished => (DReady None, d, 0)
  | _ => poll_loop_counted (S (ds_size d)) d
  end.

(** The [for] loop of [DataSink::send] (smtp-message/src/data/sink.rs:34-47), with the
    number of bytes it looks at. *)
Fixpoint sink_scan_counted (st : sink_state) (pos : nat) (item : bytes) : sink_state * option nat * nat :=
  match item with
  | [] => (st, None, 0)
  | c :: item' =>
      let go st := let '(r, n) := sink_scan_counted st (S pos) item' in (r, S n) in
      if (c =? CR)%N then go SkCrPassed
      else match st with
           | SkCrPassed => if (c =? LF)%N then go SkCrLfPassed else go SkRunning
           | SkCrLfPassed => if (c =? DOT)%N then (SkRunning, Some pos, 1) else go SkRunning
           | SkRunning => go SkRunning
           end
  end.
(** [DataSink::send] (sink.rs:26-63) *)
Fixpoint sink_send_loop_counted (fuel : nat) (ok : sink_oracle) (s : sink) (item : bytes)
  : sink * sink_result * nat :=
  match fuel with
  | O => (s, SkFuel, 0)
  | S fuel' =>
      let '(st, breakat, n) := sink_scan_counted (sk_state s) 0 item in
      match breakat with
      | None =>
          match sink_put ok (sk_sent s) item with
          | (sent, true) => (Sink sent st, SkOk, n)
          | (sent, false) => (Sink sent st, SkErr, n)
          end
      | Some pos =>
          match sink_put ok (sk_sent s) (firstn (pos + 1) item) with
          | (sent, true) =>
              let '(r, n') := sink_send_loop_counted fuel' ok (Sink sent st) (skipn pos item) in (r, n + n')
          | (sent, false) => (Sink sent st, SkErr, n)
          end
      end
  end.
Definition sink_send_counted (ok : sink_oracle) (s : sink) (item : bytes) : sink * sink_result * nat :=
  sink_send_loop_counted (length item + 2) ok s item.
