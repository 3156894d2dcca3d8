(** Any user code for the future of Async.v: the futures of the [Config] trait as
    state machines of their own (config.rs:14-55).  They may change their state,
    the configuration and the connection metadata whenever they are polled,
    answer [Pending] as often as they like, for ever if they like, and panic. *)
From Verif Require Import Bytes Nom SmtpString Ip Message Reply Stream Interact SinkFuture Async.

(** A future that returns an [R] and works on what it borrows, an [S]; [None] is a
    panic. *)
Record ufuture (S R : Type) := UFuture {
  uf_state : Type;
  uf_start : uf_state;
  uf_poll : uf_state -> S -> poll (option R) * uf_state * S
}.
Arguments uf_state {S R}.
Arguments uf_start {S R}.
Arguments uf_poll {S R}.

(** One poll of the future of [handle_mail]: it calls [poll_next] and [complete] of
    the [DataStream] as it likes, and then answers [Pending], in state [l], or
    [Ready], or panics.  [L]: its states.  (A poll that never returns is not
    modelled.)  [poll] is also told how often the stream can be polled at most
    before it is at its end: only so that a loop that reads until the stream is
    pending or at its end can be written down here. *)
Inductive hpoll (L C U : Type) :=
| PNext (k : poll (option bytes) -> hpoll L C U)
| PComplete (k : bool -> hpoll L C U)
| PWait (l : L) (c : C) (u : U)
| PReturn (d : decision) (c : C) (u : U)
| PPanic.
Arguments PNext {L C U} _.
Arguments PComplete {L C U} _.
Arguments PWait {L C U} _ _ _.
Arguments PReturn {L C U} _ _ _.
Arguments PPanic {L C U}.
Record hfuture (C U : Type) := HFuture {
  hf_state : Type;
  hf_start : hf_state;
  hf_poll : hf_state -> C -> U -> nat -> hpoll hf_state C U
}.
Arguments hf_state {C U}.
Arguments hf_start {C U}.
Arguments hf_poll {C U}.

(** An implementation of [Config]: the futures its methods return (config.rs:15-55),
    and the replies (config.rs:57-129; of [ac_replies] nothing else is used). *)
Record aconfig (C U : Type) := AConfig {
  ac_new_mail : ufuture C unit;
  ac_filter_from : ufuture (C * U * option email) decision;
  ac_filter_to : ufuture (C * U * (mail_meta * email)) decision;
  ac_filter_data : ufuture (C * U * mail_meta) decision;
  ac_handle_mail : mail_meta -> hfuture C U;
  ac_replies : config C U
}.
Arguments ac_new_mail {C U}.
Arguments ac_filter_from {C U}.
Arguments ac_filter_to {C U}.
Arguments ac_filter_data {C U}.
Arguments ac_handle_mail {C U}.
Arguments ac_replies {C U}.

Section AnyUser.
Context {C U W : Type}.
Variable ac : aconfig C U.
Notation state := (@st C U W).
Notation world := (@world C U W).
Notation async := (@async C U W).

(** [cfg.new_mail().await] (interact.rs:93) *)
Definition op_new_mail (l : uf_state (ac_new_mail ac)) (x : world) : poll (outcome unit) * uf_state (ac_new_mail ac) * world :=
  let '(r, l', c) := uf_poll (ac_new_mail ac) l (st_cfg (w_st x)) in
  let s := set_cfg (w_st x) c in
  match r with
  | Pending => (Pending, l', upd x s)
  | Ready None => (Ready Panic, l', upd x s)
  | Ready (Some _) => (Ready (Ret tt), l', upd x (log s ONewMail))
  end.
(** The other futures but that of [handle_mail].  [X]: the variables of [interact]
    that it borrows besides the configuration and the connection metadata, kept
    here with the state of the future; [finish] is what [interact] has then, and
    what there is to see of the call. *)
Definition op_filter {X} (f : ufuture (C * U * X) decision) (finish : decision -> X -> state -> state)
  (l : uf_state f * X) (x : world) : poll (outcome (decision * X)) * (uf_state f * X) * world :=
  let '(r, l', (c, u, v)) := uf_poll f (fst l) (st_cfg (w_st x), st_user (w_st x), snd l) in
  let s := set_cu (w_st x) c u in
  match r with
  | Pending => (Pending, (l', v), upd x s)
  | Ready None => (Ready Panic, (l', v), upd x s)
  | Ready (Some d) => (Ready (Ret (d, v)), (l', v), upd x (finish d v s))
  end.
Definition a_filter {X} (f : ufuture (C * U * X) decision) (v : X) (finish : decision -> X -> state -> state) : async (decision * X) :=
  AAwait (op_filter f finish) (uf_start f, v) (fun b => ADone (Ret b)).
(** [cfg.filter_from(&mut from, conn_meta).await] (interact.rs:94) *)
Definition any_filter_from (from : option email) : async (decision * option email) :=
  abind (read st_user) (fun u0 =>
  a_filter (ac_filter_from ac) from (fun d from' s => log s (OFrom u0 from d (st_user s) from'))).
(** [cfg.filter_to(&mut to, mail_meta_unw, conn_meta).await] (interact.rs:111) *)
Definition any_filter_to (m : mail_meta) (to : email) : async (decision * mail_meta * email) :=
  abind (read st_user) (fun u0 =>
  abind (a_filter (ac_filter_to ac) (m, to) (fun d v s => log (set_mail s (Some (fst v))) (OTo u0 m to d (st_user s) (fst v) (snd v)))) (fun r =>
  let '(d, (m', to')) := r in ADone (Ret (d, m', to')))).
(** [cfg.filter_data(&mut mail_meta_unw, conn_meta).await] (interact.rs:127) *)
Definition any_filter_data (m : mail_meta) : async (decision * mail_meta) :=
  abind (read st_user) (fun u0 =>
  a_filter (ac_filter_data ac) m (fun d m' s => log s (OFilterData u0 m d (st_user s) m'))).

(** A poll of the future of [handle_mail]: how it ends, the [DataStream] then, all
    that was read of it so far and the results of [complete] so far. *)
Inductive hend (L : Type) := EWait (l : L) (c : C) (u : U) | EReturn (d : decision) (c : C) (u : U) | EPanic | ECompletePanic | EFuel.
Arguments EWait {L} _ _ _.
Arguments EReturn {L} _ _ _.
Arguments EPanic {L}.
Arguments ECompletePanic {L}.
Arguments EFuel {L}.
Fixpoint run_hpoll {L} (h : hpoll L C U) (d : datastream) (data : bytes) (cs : list bool) : hend L * datastream * bytes * list bool :=
  match h with
  | PNext k =>
      match ds_poll d with
      | (DReady x, d') => run_hpoll (k (Ready x)) d' (data ++ match x with Some b => b | None => [] end) cs
      | (DPending, d') => run_hpoll (k Pending) d' data cs
      | (DFuel, d') => (EFuel, d', data, cs)
      end
  | PComplete k =>
      match ds_complete d with
      | (CompleteOk, d') => run_hpoll (k true) d' data (cs ++ [true])
      | (CompleteErr, d') => run_hpoll (k false) d' data (cs ++ [false])
      | (CompletePanic, d') => (ECompletePanic, d', data, cs)
      end
  | PWait l c u => (EWait l c u, d, data, cs)
  | PReturn v c u => (EReturn v c u, d, data, cs)
  | PPanic => (EPanic, d, data, cs)
  end.
(** The state of the future as it is awaited: its own, the fields of the [DataStream]
    besides its source, which is the reader, and what was seen of it so far. *)
Definition op_handle (u0 : U) (m : mail_meta) (f : hfuture C U) (l : hf_state f * ds_state * bytes * bytes * list bool) (x : world)
  : poll (outcome (decision * ds_state)) * (hf_state f * ds_state * bytes * bytes * list bool) * world :=
  let '(h, t, buf, data, cs) := l in
  let s := w_st x in
  let d := DS (st_reader s) t buf in
  let '(e, d, data', cs') := run_hpoll (hf_poll f h (st_cfg s) (st_user s) (S (ds_size d))) d data cs in
  let s := set_reader s (ds_source d) in
  match e with
  | EWait h' c u => (Pending, (h', ds_st d, ds_buf d, data', cs'), upd x (set_cu s c u))
  | EReturn v c u => (Ready (Ret (v, ds_st d)), l, upd x (log (set_cu s c u) (OHandle u0 m data' cs' (Some (v, u)))))
  | EPanic => (Ready Panic, l, upd x s)
  | ECompletePanic => (Ready Panic, l, upd x (log s (OHandle u0 m data' cs' None)))
  | EFuel => (Ready NoFuel, l, upd x s)
  end.
(** [DataStream::new(reader)] and [cfg.handle_mail(&mut data_stream, mail_meta_unw,
    conn_meta).await] (interact.rs:130-133) *)
Definition any_handle_mail (m : mail_meta) : async (decision * ds_state) :=
  abind (read st_user) (fun u0 =>
  AAwait (op_handle u0 m (ac_handle_mail ac m)) (hf_start (ac_handle_mail ac m), ds_st (ds_new (prep_new (src_of []))), [], [], [])
    (fun r => ADone (Ret r))).

Definition any_user : usercode := {|
  us_new_mail := AAwait op_new_mail (uf_start (ac_new_mail ac)) (fun b => ADone (Ret b));
  us_filter_from := any_filter_from;
  us_filter_to := any_filter_to;
  us_filter_data := any_filter_data;
  us_handle_mail := any_handle_mail
|}.
(** [interact] with any user code. *)
Definition interact_any (out : @outlet C U W) : async unit := interact_with (ac_replies ac) out any_user.
End AnyUser.
Arguments EWait {C U L} _ _ _.
Arguments EReturn {C U L} _ _ _.
Arguments EPanic {C U L}.
Arguments ECompletePanic {C U L}.
Arguments EFuel {C U L}.
