(** [interact] as a future: what one call of its [poll] does, when it gives up
    with [Poll::Pending], and what it keeps for the next call.  Interact.v gives
    the same code run to its end. *)
From Verif Require Import Bytes Nom SmtpString Ip Message Reply Stream Interact SinkFuture.

Section Async.
Context {C U W : Type}.
Variable cfg : config C U.

(** The world of a session: the variables of [interact] (Interact.v), and when
    the user's code is not ready.  The futures of the configuration, each time
    they are polled, take the next element of [w_sched]: [true] says that they
    answer [Pending]; at the end of the list they are always ready.  (When the
    incoming stream is pending is told by its [Pend] events; for the writer see
    [outlet].) *)
Notation state := (@st C U W).
Record world := World { w_st : state; w_sched : list bool }.
Definition upd (x : world) (s : state) : world := World s (w_sched x).
(** Is the polled thing pending? *)
Definition ask (x : world) : bool * world :=
  match w_sched x with
  | [] => (false, x)
  | b :: l => (b, World (w_st x) l)
  end.

(** The state machine the compiler makes of an [async] block: it is over, or it
    waits at an [.await] for a future in state [l] with poll function [op], and
    goes on with [k].  An error of the future ends it ([?]), so does a panic. *)
Inductive async (A : Type) : Type :=
| ADone (o : outcome A)
| AAwait (L B : Type) (op : L -> world -> poll (outcome B) * L * world) (l : L) (k : B -> async A).
Arguments ADone {A} _.
Arguments AAwait {A L B} _ _ _.

(** [a.await?; b] inside an [async fn] *)
Fixpoint abind {A B} (p : async A) (f : A -> async B) : async B :=
  match p with
  | ADone (Ret a) => f a
  | ADone WriteErr => ADone WriteErr
  | ADone Panic => ADone Panic
  | ADone NoFuel => ADone NoFuel
  | AAwait op l k => AAwait op l (fun b => abind (k b) f)
  end.

(** [Future::poll] of the machine: run until something awaited is pending. *)
Fixpoint poll_async {A} (p : async A) (x : world) : (outcome A + async A) * world :=
  match p with
  | ADone o => (inl o, x)
  | AAwait op l k =>
      match op l x with
      | (Pending, l', x') => (inr (AAwait op l' k), x')
      | (Ready (Ret b), _, x') => poll_async (k b) x'
      | (Ready WriteErr, _, x') => (inl WriteErr, x')
      | (Ready Panic, _, x') => (inl Panic, x')
      | (Ready NoFuel, _, x') => (inl NoFuel, x')
      end
  end.

(** Code without [.await]. *)
Definition sync {B} (f : state -> outcome B * state) : async B :=
  AAwait (L := unit) (fun _ x => let '(o, s) := f (w_st x) in (Ready o, tt, upd x s)) tt (fun b => ADone (Ret b)).
(** The values of some variables. *)
Definition read {B} (f : state -> B) : async B := sync (fun s => (Ret (f s), s)).

(** ** The incoming stream *)
(** [s.next()] of a [Prependable] (crlflines.rs:11, prependable.rs:32-48) *)
Definition op_next (_ : unit) (x : world) : poll (outcome (option bytes)) * unit * world :=
  let '(r, p) := prep_poll (st_reader (w_st x)) in
  let x := upd x (set_reader (w_st x) p) in
  match r with
  | Pending => (Pending, tt, x)
  | Ready b => (Ready (Ret b), tt, x)
  end.
(** [s.prepend(b).unwrap()] *)
Definition a_prepend (b : bytes) : async unit :=
  sync (fun s => match prep_prepend (st_reader s) b with
                 | Some p => (Ret tt, set_reader s p)
                 | None => (Panic, s)
                 end).
(** [next_crlf_line] (crlflines.rs:6-35) *)
Fixpoint a_next_line_loop (fuel : nat) (buf : bytes) : async (option bytes) :=
  match fuel with
  | O => ADone NoFuel
  | S fuel' =>
      AAwait op_next tt (fun r =>
      match r with
      | Some pkt =>
          let buf := buf ++ pkt in
          match find_sub CRLF buf with
          | Some pos => abind (a_prepend (skipn (pos + 2) buf)) (fun _ => ADone (Ret (Some (firstn (pos + 2) buf))))
          | None => a_next_line_loop fuel' buf
          end
      | None => abind (a_prepend buf) (fun _ => ADone (Ret None))
      end)
  end.
Definition a_next_line : async (option bytes) :=
  abind (read (fun s => length (src_events (pr_stream (st_reader s))) + 2)) (fun fuel => a_next_line_loop fuel []).

(** ** The writer *)
(** The user's [Sink<Bytes>] as it is polled: [poll_ready] and [poll_flush] may
    answer [Pending]; [start_send] cannot. *)
Record outlet := Outlet {
  ou_ready : world -> poll bool * world;
  ou_send : W -> bytes -> bool * W;
  ou_flush : world -> poll bool * world
}.
(** Any [Sink]: a state machine that may also change its state when it is not
    ready ([ksink], SinkFuture.v; here the item of a failing [start_send] counts as
    not taken). *)
Definition any_sink (ks : @ksink W) : outlet := {|
  ou_ready := fun x => let '(r, w) := k_ready ks (st_w (w_st x)) in (r, upd x (set_w (w_st x) w));
  ou_send := fun w b => let '(r, w) := k_start ks w b in (match r with PutOk => true | _ => false end, w);
  ou_flush := fun x => let '(r, w) := k_flush ks (st_w (w_st x)) in (r, upd x (set_w (w_st x) w))
|}.
(** A writer of Interact.v together with the moments at which it is not ready,
    taken from [w_sched] as well; it does not change its state then. *)
Definition scheduled (wr : writer W) : outlet := {|
  ou_ready := fun x =>
    match ask x with
    | (true, x) => (Pending, x)
    | (false, x) => let '(ok, w) := w_ready wr (st_w (w_st x)) in (Ready ok, upd x (set_w (w_st x) w))
    end;
  ou_send := w_send wr;
  ou_flush := fun x =>
    match ask x with
    | (true, x) => (Pending, x)
    | (false, x) => let '(ok, w) := w_flush wr (st_w (w_st x)) in (Ready ok, upd x (set_w (w_st x) w))
    end
|}.
Variable out : outlet.
(** For [with_poll] of Interact.v, which uses the [start_send] of a writer only. *)
Definition sender : writer W := Writer _ (fun w => (true, w)) (ou_send out) (fun w => (true, w)).
(** [With::poll_ready] (futures 0.3.4): the line being worked on is handed over
    first, then the user's writer is asked whether it is ready. *)
Definition op_ready (_ : unit) (x : world) : poll (outcome unit) * unit * world :=
  match with_poll sender (w_st x) with
  | (Ret _, s) =>
      match ou_ready out (upd x s) with
      | (Pending, x) => (Pending, tt, x)
      | (Ready true, x) => (Ready (Ret tt), tt, x)
      | (Ready false, x) => (Ready WriteErr, tt, x)
      end
  | (o, s) => (Ready o, tt, upd x s)
  end.
(** [With::poll_flush] *)
Definition op_flush (_ : unit) (x : world) : poll (outcome unit) * unit * world :=
  match with_poll sender (w_st x) with
  | (Ret _, s) =>
      match ou_flush out (upd x s) with
      | (Pending, x) => (Pending, tt, x)
      | (Ready true, x) => (Ready (Ret tt), tt, x)
      | (Ready false, x) => (Ready WriteErr, tt, x)
      end
  | (o, s) => (Ready o, tt, upd x s)
  end.
(** [send_all] (futures 0.3.4, [SendAll::poll]): take a line from the iterator,
    keep it while the sink is not ready, send it; at the end flush. *)
Fixpoint a_send_chunks (code : N) (chunks : list bytes) : async unit :=
  match chunks with
  | [] => AAwait op_flush tt (fun _ => ADone (Ret tt))
  | t :: chunks' =>
      match reply_build code (match chunks' with [] => true | _ => false end) t with
      | inr _ => ADone Panic
      | inl r =>
          AAwait op_ready tt (fun _ =>
          abind (sync (fun s => with_start_send s r)) (fun _ =>
          a_send_chunks code chunks'))
      end
  end.
(** [send_reply] (sendreply.rs:11-34) *)
Definition a_send_reply (reply : N * bytes) : async unit :=
  match byte_chunks (snd reply) (N.of_nat MAX_LEN) with
  | None => ADone Panic
  | Some chunks => a_send_chunks (fst reply) chunks
  end.
(** [send_reply(writer, cfg.some_reply()).await?] *)
Definition a_say (which : C -> N * bytes) : async unit :=
  abind (read (fun s => which (st_cfg s))) a_send_reply.

(** ** The configuration *)
(** A future of the configuration: pending some times, then [f] happens.  (It does
    nothing to the user's own state while pending; for user code that does, see
    AsyncUser.v.) *)
Definition op_user {B} (f : state -> B * state) (_ : unit) (x : world) : poll (outcome B) * unit * world :=
  match ask x with
  | (true, x) => (Pending, tt, x)
  | (false, x) => let '(b, s) := f (w_st x) in (Ready (Ret b), tt, upd x s)
  end.
Definition a_user {B} (f : state -> B * state) : async B := AAwait (op_user f) tt (fun b => ADone (Ret b)).
(** [cfg.new_mail().await] *)
Definition call_new_mail (s : state) : unit * state := (tt, log (set_cfg s (cf_new_mail cfg (st_cfg s))) ONewMail).
(** [cfg.filter_from(&mut from, conn_meta).await] *)
Definition call_filter_from (from : option email) (s : state) : (decision * option email) * state :=
  let '(d, c, u, from') := cf_filter_from cfg (st_cfg s) (st_user s) from in
  ((d, from'), log (set_cu s c u) (OFrom (st_user s) from d u from')).
(** [cfg.filter_to(&mut to, mail_meta, conn_meta).await] *)
Definition call_filter_to (m : mail_meta) (to : email) (s : state) : (decision * mail_meta * email) * state :=
  let '(d, c, u, m', to') := cf_filter_to cfg (st_cfg s) (st_user s) m to in
  ((d, m', to'), log (set_mail (set_cu s c u) (Some m')) (OTo (st_user s) m to d u m' to')).
(** [cfg.filter_data(&mut mail_meta, conn_meta).await] *)
Definition call_filter_data (m : mail_meta) (s : state) : (decision * mail_meta) * state :=
  let '(d, c, u, m') := cf_filter_data cfg (st_cfg s) (st_user s) m in
  ((d, m'), log (set_cu s c u) (OFilterData (st_user s) m d u m')).

(** ** [handle_mail] *)
(** [stream.next()] of the handler (stream.rs:94-226); the state of the future are
    the fields of the [DataStream] besides its source, which is the reader. *)
Definition op_stream (l : ds_state * bytes) (x : world)
  : poll (outcome (option bytes * ds_state * bytes)) * (ds_state * bytes) * world :=
  let '(r, d) := ds_poll (DS (st_reader (w_st x)) (fst l) (snd l)) in
  let x := upd x (set_reader (w_st x) (ds_source d)) in
  match r with
  | DPending => (Pending, (ds_st d, ds_buf d), x)
  | DReady b => (Ready (Ret (b, ds_st d, ds_buf d)), (ds_st d, ds_buf d), x)
  | DFuel => (Ready NoFuel, (ds_st d, ds_buf d), x)
  end.
Fixpoint a_read_until (fuel : nat) (stop : list bytes -> bool) (acc : list bytes) (t : ds_state) (buf : bytes)
  : async (list bytes * bool * ds_state * bytes) :=
  if stop acc then ADone (Ret (acc, false, t, buf))
  else match fuel with
       | O => ADone NoFuel
       | S fuel' =>
           AAwait op_stream (t, buf) (fun r =>
           match r with
           | (Some b, t, buf) => a_read_until fuel' stop (acc ++ [b]) t buf
           | (None, t, buf) => ADone (Ret (acc, true, t, buf))
           end)
       end.
(** [stream.complete()] *)
Definition a_complete (t : ds_state) (buf : bytes) : async (complete_result * ds_state * bytes) :=
  sync (fun s =>
    let '(r, d) := ds_complete (DS (st_reader s) t buf) in
    (Ret (r, ds_st d, ds_buf d), set_reader s (ds_source d))).
(** [stream.poll_next(..)] without waiting *)
Definition a_poll_once (t : ds_state) (buf : bytes) : async (poll (option bytes) * ds_state * bytes) :=
  sync (fun s =>
    let '(r, d) := ds_poll (DS (st_reader s) t buf) in
    (match r with
     | DReady x => Ret (Ready x, ds_st d, ds_buf d)
     | DPending => Ret (Pending, ds_st d, ds_buf d)
     | DFuel => NoFuel
     end, set_reader s (ds_source d))).
(** The handler's future; it may also be pending on its own account before each
    of its steps.  [u0], [m]: what it was called with, for the observation. *)
Fixpoint a_handler (u0 : U) (m : mail_meta) (h : handler C U) (t : ds_state) (buf : bytes) (data : bytes) (cs : list bool)
  : async (decision * ds_state) :=
  abind (a_user (fun s => (st_reader s, s))) (fun reader =>
  match h with
  | HRead stop k =>
      abind (a_read_until (S (ds_size (DS reader t buf))) stop [] t buf) (fun r =>
      let '(items, over, t, buf) := r in
      a_handler u0 m (k items over) t buf (data ++ concat items) cs)
  | HComplete k =>
      abind (a_complete t buf) (fun r =>
      match r with
      | (CompleteOk, t, buf) => a_handler u0 m (k true) t buf data (cs ++ [true])
      | (CompleteErr, t, buf) => a_handler u0 m (k false) t buf data (cs ++ [false])
      | (CompletePanic, t, buf) => sync (fun s => (Panic, log s (OHandle u0 m data cs None)))
      end)
  | HPoll k =>
      abind (a_poll_once t buf) (fun r =>
      let '(r, t, buf) := r in
      a_handler u0 m (k r) t buf (data ++ match r with Ready (Some b) => b | _ => [] end) cs)
  | HDone v c u =>
      sync (fun s => (Ret (v, t), log (set_cu s c u) (OHandle u0 m data cs (Some (v, u)))))
  end).

(** ** User code *)
(** The futures of the configuration, with all they do: [interact] awaits each of
    them and gets the decision and what became of the arguments passed as [&mut];
    from [handle_mail], the decision and the state of the [DataStream] afterwards. *)
Record usercode := Usercode {
  us_new_mail : async unit;
  us_filter_from : option email -> async (decision * option email);
  us_filter_to : mail_meta -> email -> async (decision * mail_meta * email);
  us_filter_data : mail_meta -> async (decision * mail_meta);
  us_handle_mail : mail_meta -> async (decision * ds_state)
}.
(** The user code given by [cfg], pending at times. *)
Definition scheduled_user : usercode := {|
  us_new_mail := a_user call_new_mail;
  us_filter_from := fun from => a_user (call_filter_from from);
  us_filter_to := fun m to => a_user (call_filter_to m to);
  us_filter_data := fun m => a_user (call_filter_data m);
  us_handle_mail := fun m =>
    abind (read (fun s => (st_cfg s, st_user s, ds_new (st_reader s)))) (fun v =>
    let '(c, u, d) := v in a_handler u m (cf_handle_mail cfg c u m) (ds_st d) (ds_buf d) [] [])
|}.
(** From here on [cfg] is used for the replies only. *)
Variable us : usercode.

(** ** [handle_line] (interact.rs:70-174) *)
(** interact.rs:84-107 *)
Definition a_mail_cmd (from : option email) : async unit :=
  abind (read st_mail) (fun mail =>
  match mail with
  | Some _ => a_say (cf_already_in_mail cfg)
  | None =>
      abind (us_new_mail us) (fun _ =>
      abind (us_filter_from us from) (fun r =>
      match r with
      | (Accept, from') =>
          abind (a_say (cf_mail_okay cfg)) (fun _ =>
          sync (fun s => (Ret tt, set_mail s (Some (Meta from' [])))))
      | (Reject code msg, _) => a_send_reply (code, msg)
      end))
  end).
(** interact.rs:108-125 *)
Definition a_rcpt_cmd (to : email) : async unit :=
  abind (read st_mail) (fun mail =>
  match mail with
  | Some m =>
      abind (us_filter_to us m to) (fun r =>
      match r with
      | (Accept, m', to') =>
          abind (sync (fun s => (Ret tt, set_mail s (Some (Meta (mm_from m') (mm_to m' ++ [to'])))))) (fun _ =>
          a_say (cf_rcpt_okay cfg))
      | (Reject code msg, _, _) => a_send_reply (code, msg)
      end)
  | None => a_say (cf_rcpt_before_mail cfg)
  end).
(** interact.rs:131-151 *)
Definition a_receive_mail (m : mail_meta) : async unit :=
  abind (us_handle_mail us m) (fun r =>
  match r with
  | (v, Completed) =>
      match v with
      | Accept => a_say (cf_mail_accepted cfg)
      | Reject code msg => a_send_reply (code, msg)
      end
  | _ => ADone Panic
  end).
(** interact.rs:126-164 *)
Definition a_data_cmd : async unit :=
  abind (read st_mail) (fun mail =>
  match mail with
  | Some m =>
      abind (sync (fun s => (Ret tt, set_mail s None))) (fun _ =>
      match mm_to m with
      | [] =>
          abind (a_say (cf_data_before_rcpt cfg)) (fun _ =>
          sync (fun s => (Ret tt, set_mail s (Some m))))
      | _ :: _ =>
          abind (us_filter_data us m) (fun r =>
          match r with
          | (Accept, m') => abind (a_say (cf_data_okay cfg)) (fun _ => a_receive_mail m')
          | (Reject code msg, m') =>
              abind (a_send_reply (code, msg)) (fun _ =>
              sync (fun s => (Ret tt, set_mail s (Some m'))))
          end)
      end)
  | None => a_say (cf_data_before_mail cfg)
  end).
(** interact.rs:82-174 *)
Definition a_handle_line (line : bytes) : async unit :=
  match command_parse line with
  | POk (Mail from _) => a_mail_cmd from
  | POk (Rcpt to _) => a_rcpt_cmd to
  | POk Data => a_data_cmd
  | POk _ => a_say (cf_command_unimplemented cfg)
  | POutOfFuel => ADone NoFuel
  | _ => a_say (cf_command_unrecognized cfg)
  end.

(** interact.rs:54-64 *)
Fixpoint a_loop (fuel : nat) : async unit :=
  match fuel with
  | O => ADone NoFuel
  | S fuel' =>
      abind a_next_line (fun r =>
      match r with
      | Some l => abind (a_handle_line l) (fun _ => a_loop fuel')
      | None => ADone (Ret tt)
      end)
  end.
(** [interact] (interact.rs:19-68): the future *)
Definition interact_with : async unit :=
  abind (a_say (cf_welcome_banner cfg)) (fun _ =>
  abind (read (fun s => S (prep_size (st_reader s)))) a_loop).
(** The world it starts in. *)
Definition world_new (incoming : src) (w : W) (c : C) (u : U) (sched : list bool) : world :=
  World (St c u None (prep_new incoming) w None []) sched.

(** Polling [n] times, not more once it is over. *)
Fixpoint after_polls {A} (n : nat) (p : async A) (x : world) : (outcome A + async A) * world :=
  match n with
  | O => (inr p, x)
  | S n' => match poll_async p x with
            | (inl o, x') => (inl o, x')
            | (inr p', x') => after_polls n' p' x'
            end
  end.
End Async.
(** [interact] with user code that is pending at times. *)
Definition interact_future {C U W} (cfg : config C U) (out : @outlet C U W) : @async C U W unit :=
  interact_with cfg out (scheduled_user cfg).
Arguments ADone {C U W A} _.
Arguments AAwait {C U W A L B} _ _ _.
