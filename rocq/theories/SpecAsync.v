(** Specification for [interact] as a future: why a poll may answer [Pending]. *)
From Verif Require Import Bytes Stream Interact SinkFuture Async SpecPrompt.

(** What the incoming stream has answered, the schedule of the user's code used up
    and what was observed between two moments of a session. *)
Definition events_of {C U W} (x : @world C U W) : list event := src_events (pr_stream (st_reader (w_st x))).
Definition trace_of {C U W} (x : @world C U W) : list (obs U) := st_trace (w_st x).
Definition between {C U W} (x x' : @world C U W) (answers : list event) (asked : list bool) (seen : list (obs U)) : Prop :=
  events_of x = answers ++ events_of x' /\ w_sched x = asked ++ w_sched x' /\ trace_of x' = trace_of x ++ seen.

Definition is_chunk (e : event) : Prop := exists b, e = Chunk b.
(** No one answered [Pending]. *)
Definition all_ready (answers : list event) (asked : list bool) : Prop :=
  Forall is_chunk answers /\ Forall (fun b => b = false) asked.
(** The incoming stream answered [Pending], and was not asked again; nobody else did. *)
Definition source_pending (answers : list event) (asked : list bool) : Prop :=
  exists before, answers = before ++ [Pend] /\ all_ready before asked.
(** The writer or a future of the configuration did, and none of these was asked
    again; the incoming stream did not. *)
Definition user_pending (answers : list event) (asked : list bool) : Prop :=
  exists before, asked = before ++ [true] /\ all_ready answers before.

(** The configuration awaits what it reads of a mail: its handler does not go on
    when [poll_next] answers [Pending]. *)
Fixpoint handler_awaits {C U} (h : handler C U) : Prop :=
  match h with
  | HRead _ k => forall items over, handler_awaits (k items over)
  | HComplete k => forall ok, handler_awaits (k ok)
  | HPoll _ => False
  | HDone _ _ _ => True
  end.
Definition awaiting {C U} (cfg : config C U) : Prop := forall c u m, handler_awaits (cf_handle_mail cfg c u m).

(** How many [Pending] answers there are in all. *)
Definition count_pend (evs : list event) : nat := length (filter (fun e => match e with Pend => true | _ => false end) evs).
Definition count_true (l : list bool) : nat := length (filter (fun b => b) l).

(** ** Any sink *)
(** The calls of a sink and its answers, and a sink that remembers them. *)
Inductive call := CReady (r : poll bool) | CSend (b : bytes) (ok : bool) | CFlush (r : poll bool).
Definition taken_ok (r : put_answer) : bool := match r with PutOk => true | _ => false end.
Definition recording {K} (ks : @ksink K) : @ksink (K * list call) := {|
  k_ready := fun x => let '(r, k) := k_ready ks (fst x) in (r, (k, snd x ++ [CReady r]));
  k_start := fun x b => let '(r, k) := k_start ks (fst x) b in (r, (k, snd x ++ [CSend b (taken_ok r)]));
  k_flush := fun x => let '(r, k) := k_flush ks (fst x) in (r, (k, snd x ++ [CFlush r]))
|}.
Definition calls {C U K} (x : @world C U (K * list call)) : list call := snd (st_w (w_st x)).
(** Its answers other than [Pending], how often it answered [Pending], and what it
    was given. *)
Definition answer_of (c : call) : list bool :=
  match c with
  | CReady (Ready ok) | CFlush (Ready ok) | CSend _ ok => [ok]
  | CReady Pending | CFlush Pending => []
  end.
Definition final_answers (l : list call) : list bool := flat_map answer_of l.
Definition not_ready (l : list call) : nat :=
  length (filter (fun c => match c with CReady Pending | CFlush Pending => true | _ => false end) l).
Definition sent (l : list call) : list bytes := flat_map (fun c => match c with CSend b true => [b] | _ => [] end) l.
Definition writes {U} (l : list (obs U)) : list bytes := flat_map (fun o => match o with OWrite b => [b] | _ => [] end) l.
(** Nothing was sent since the last flush that succeeded. *)
Definition flushed (l : list call) : Prop :=
  exists before after, l = before ++ after /\ (before = [] \/ exists b, before = b ++ [CFlush (Ready true)])
    /\ forall b ok, ~ In (CSend b ok) after.
(** A writer that is always ready and answers as in a list; after its end, [Ok]. *)
Definition next_answer (w : list bool) : bool * list bool := match w with [] => (true, []) | ok :: w => (ok, w) end.
Definition replay : writer (list bool) :=
  {| w_ready := next_answer; w_send := fun w _ => next_answer w; w_flush := next_answer |}.
(** The same session but for the writer. *)
Definition same_but_writer {C U V W} (s : @st C U V) (s' : @st C U W) : Prop :=
  st_cfg s = st_cfg s' /\ st_user s = st_user s' /\ st_mail s = st_mail s' /\ st_reader s = st_reader s'
  /\ st_with s = st_with s' /\ st_trace s = st_trace s'.
(** The contract of [Sink] (futures 0.3): [start_send] directly after a [poll_ready]
    that answered [Ok]; no call after an error. *)
Definition contract (l : list call) : Prop :=
  (forall before b ok after, l = before ++ CSend b ok :: after -> exists b', before = b' ++ [CReady (Ready true)])
  /\ (forall before c after, l = before ++ c :: after -> answer_of c = [false] -> after = []).
