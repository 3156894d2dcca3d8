(** [DataSink] (smtp-message/src/data/sink.rs) as futures over any [Sink<Bytes>]:
    what one poll does and what a dropped future leaves behind.  Stream.v gives
    the same code with each [send(..).await] run to its end. *)
From Verif Require Import Bytes Stream.

Section SinkFuture.
Context {K : Type}.

(** The user's [Sink<Bytes>], any state machine: [poll_ready], [start_send] and
    [poll_flush]; [true] is [Ok(())].  [start_send] may fail with or without having
    taken the item. *)
Record ksink := KSink {
  k_ready : K -> poll bool * K;
  k_start : K -> bytes -> put_answer * K;
  k_flush : K -> poll bool * K
}.
Variable ks : ksink.

(** The items taken so far (ghost) and the state of the sink. *)
Record wire := Wire { wi_sink : K; wi_taken : list bytes }.

(** [Send::poll] of futures 0.3.4 (sink/send.rs), with the item not yet handed
    over, if any: [poll_ready], [start_send], then [poll_flush]. *)
Definition poll_put (cur : option bytes) (x : wire) : poll bool * option bytes * wire :=
  let flush k taken := let '(r, k) := k_flush ks k in (r, None, Wire k taken) in
  match cur with
  | None => flush (wi_sink x) (wi_taken x)
  | Some b =>
      match k_ready ks (wi_sink x) with
      | (Pending, k) => (Pending, Some b, Wire k (wi_taken x))
      | (Ready false, k) => (Ready false, None, Wire k (wi_taken x))
      | (Ready true, k) =>
          match k_start ks k b with
          | (PutOk, k) => flush k (wi_taken x ++ [b])
          | (PutRefused, k) => (Ready false, None, Wire k (wi_taken x))
          | (PutTaken, k) => (Ready false, None, Wire k (wi_taken x ++ [b]))
          end
      end
  end.

(** A task that uses a [DataSink]: it is over, [self.state] being [st], or waits for
    [self.sink.send(..)]; [cur] is the item of that future. *)
Inductive stask :=
| TDone (st : sink_state)
| TPut (st : sink_state) (cur : option bytes) (k : stask)
| TFuel.

(** [DataSink::send] (sink.rs:26-63), then [k] *)
Fixpoint t_send (fuel : nat) (st : sink_state) (item : bytes) (k : sink_state -> stask) : stask :=
  match fuel with
  | O => TFuel
  | S fuel' =>
      let '(st', breakat) := sink_scan st 0 item in
      match breakat with
      | None => TPut st' (Some item) (k st')
      | Some pos => TPut st' (Some (firstn (pos + 1) item)) (t_send fuel' st' (skipn pos item) k)
      end
  end.
(** A caller that sends the pieces in turn: [for m in ms { sink.send(m).await?; }] *)
Fixpoint t_send_all (st : sink_state) (ms : list bytes) (k : sink_state -> stask) : stask :=
  match ms with
  | [] => k st
  | m :: ms' => t_send (length m + 2) st m (fun st => t_send_all st ms' k)
  end.
(** [DataSink::end] (sink.rs:65-74) *)
Definition t_end (st : sink_state) : stask :=
  TPut st (Some match st with
                | SkRunning => CRLF ++ [DOT] ++ CRLF
                | SkCrPassed => CRLF ++ [DOT] ++ CRLF
                | SkCrLfPassed => [DOT] ++ CRLF
                end) (TDone st).

(** One poll of such a task: its result (with the [self.state] it leaves), or the
    task that remains. *)
Fixpoint poll_task (t : stask) (x : wire) : (sink_result * sink_state + stask) * wire :=
  match t with
  | TDone st => (inl (SkOk, st), x)
  | TFuel => (inl (SkFuel, SkRunning), x)
  | TPut st cur k =>
      match poll_put cur x with
      | (Pending, cur', x') => (inr (TPut st cur' k), x')
      | (Ready true, _, x') => poll_task k x'
      | (Ready false, _, x') => (inl (SkErr, st), x')
      end
  end.
Fixpoint poll_times (n : nat) (t : stask) (x : wire) : (sink_result * sink_state + stask) * wire :=
  match n with
  | O => (inr t, x)
  | S n' => match poll_task t x with
            | (inl r, x') => (inl r, x')
            | (inr t', x') => poll_times n' t' x'
            end
  end.
(** The [self.state] that a task leaves when it is dropped. *)
Definition left_state (t : stask) : sink_state :=
  match t with TDone st | TPut st _ _ => st | TFuel => SkRunning end.
End SinkFuture.
Arguments ksink : clear implicits.
Arguments wire : clear implicits.
