(** Specification for [interact] with any user code: a configuration as in
    Interact.v that gives answers from a list. *)
From Verif Require Import Bytes SmtpString Ip Message Reply Stream Interact SinkFuture Async AsyncUser SpecSession SpecPrompt SpecAsync.

(** What a call of the configuration did, as far as [interact] can tell: what it
    returned and what became of what it was lent - of the sender, the recipient and
    the mail metadata, how it changed them.  Of [handle_mail], what it did with the
    [DataStream]: a poll, reading to the end, [complete]; and its verdict, which may
    depend on the results of [complete]. *)
Inductive use := UPoll | UDrain | UComplete.
Inductive answer (C U : Type) :=
| ANewMail (c : C)
| AFrom (d : decision) (c : C) (u : U) (change : option email -> option email)
| ATo (d : decision) (c : C) (u : U) (change : mail_meta * email -> mail_meta * email)
| AData (d : decision) (c : C) (u : U) (change : mail_meta -> mail_meta)
| AHandle (uses : list use) (verdict : list bool -> decision) (c : C) (u : U).
Arguments ANewMail {C U} _.
Arguments AFrom {C U} _ _ _ _.
Arguments ATo {C U} _ _ _ _.
Arguments AData {C U} _ _ _ _.
Arguments AHandle {C U} _ _ _ _.
(** A handler that uses the stream so and goes on as [k] says.  [cs]: the results of
    [complete] before. *)
Fixpoint use_stream {C U} (uses : list use) (cs : list bool) (k : list bool -> handler C U) : handler C U :=
  match uses with
  | [] => k cs
  | UPoll :: l => HPoll (fun _ => use_stream l cs k)
  | UDrain :: l => HRead (fun _ => false) (fun _ _ => use_stream l cs k)
  | UComplete :: l => HComplete (fun ok => use_stream l (cs ++ [ok]) k)
  end.
(** The configuration: its state has a list of answers, all of them as [allowed]
    says, which it gives one after the other; if the next one does not fit, it
    accepts.  The replies are those of [replies]. *)
Definition answering {C U} (allowed : answer C U -> Prop) (replies : config C U) : config (C * list {a | allowed a}) U := {|
  cf_new_mail := fun c => match snd c with exist _ (ANewMail c') _ :: l => (c', l) | _ => c end;
  cf_filter_from := fun c u from => match snd c with exist _ (AFrom d c' u' change) _ :: l => (d, (c', l), u', change from) | _ => (Accept, c, u, from) end;
  cf_filter_to := fun c u m to => match snd c with exist _ (ATo d c' u' change) _ :: l => (d, (c', l), u', fst (change (m, to)), snd (change (m, to))) | _ => (Accept, c, u, m, to) end;
  cf_filter_data := fun c u m => match snd c with exist _ (AData d c' u' change) _ :: l => (d, (c', l), u', change m) | _ => (Accept, c, u, m) end;
  cf_handle_mail := fun c u m =>
    match snd c with
    | exist _ (AHandle uses verdict c' u') _ :: l => use_stream uses [] (fun cs => HDone (verdict cs) (c', l) u')
    | _ => use_stream [UDrain; UComplete] [] (fun _ => HDone Accept c u)
    end;
  cf_welcome_banner := fun c => cf_welcome_banner replies (fst c);
  cf_mail_okay := fun c => cf_mail_okay replies (fst c);
  cf_rcpt_okay := fun c => cf_rcpt_okay replies (fst c);
  cf_data_okay := fun c => cf_data_okay replies (fst c);
  cf_mail_accepted := fun c => cf_mail_accepted replies (fst c);
  cf_already_in_mail := fun c => cf_already_in_mail replies (fst c);
  cf_rcpt_before_mail := fun c => cf_rcpt_before_mail replies (fst c);
  cf_data_before_rcpt := fun c => cf_data_before_rcpt replies (fst c);
  cf_data_before_mail := fun c => cf_data_before_mail replies (fst c);
  cf_command_unimplemented := fun c => cf_command_unimplemented replies (fst c);
  cf_command_unrecognized := fun c => cf_command_unrecognized replies (fst c)
|}.
(** ** Where the answers come from *)
(** A future polled until it is ready, nobody else touching what it borrows. *)
Inductive ends_with {S R} (f : ufuture S R) : uf_state f -> S -> R -> S -> Prop :=
| ends_ready l s r l' s' : uf_poll f l s = (Ready (Some r), l', s') -> ends_with f l s r s'
| ends_wait l s l' s' r s'' : uf_poll f l s = (Pending, l', s') -> ends_with f l' s' r s'' -> ends_with f l s r s''.
(** One poll of the future of [handle_mail] on a [DataStream]: what it reads, the
    results of [complete], how it ends and the stream then. *)
Inductive stops (L C U : Type) := Waits (l : L) (c : C) (u : U) | Returns (v : decision) (c : C) (u : U) | CompletePanics.
Arguments Waits {L C U} _ _ _.
Arguments Returns {L C U} _ _ _.
Arguments CompletePanics {L C U}.
Inductive acts {L C U} : hpoll L C U -> datastream -> bytes -> list bool -> stops L C U -> datastream -> Prop :=
| acts_item k d b d1 text cs e d2 : ds_poll d = (DReady (Some b), d1) -> acts (k (Ready (Some b))) d1 text cs e d2 -> acts (PNext k) d (b ++ text) cs e d2
| acts_end k d d1 text cs e d2 : ds_poll d = (DReady None, d1) -> acts (k (Ready None)) d1 text cs e d2 -> acts (PNext k) d text cs e d2
| acts_pending k d d1 text cs e d2 : ds_poll d = (DPending, d1) -> acts (k Pending) d1 text cs e d2 -> acts (PNext k) d text cs e d2
| acts_complete k d d1 text cs e d2 : ds_complete d = (CompleteOk, d1) -> acts (k true) d1 text cs e d2 -> acts (PComplete k) d text (true :: cs) e d2
| acts_incomplete k d d1 text cs e d2 : ds_complete d = (CompleteErr, d1) -> acts (k false) d1 text cs e d2 -> acts (PComplete k) d text (false :: cs) e d2
| acts_panic k d d1 : ds_complete d = (CompletePanic, d1) -> acts (PComplete k) d [] [] CompletePanics d1
| acts_wait l c u d : acts (PWait l c u) d [] [] (Waits l c u) d
| acts_return v c u d : acts (PReturn v c u) d [] [] (Returns v c u) d.
(** The future polled to its end; [None]: [complete] panicked. *)
Inductive handles {C U} (f : hfuture C U) : hf_state f -> datastream -> C -> U -> bytes -> list bool -> option (decision * C * U) -> Prop :=
| handles_return h d c u text cs v c' u' d' :
    acts (hf_poll f h c u (S (ds_size d))) d text cs (Returns v c' u') d' -> handles f h d c u text cs (Some (v, c', u'))
| handles_panic h d c u text cs d' :
    acts (hf_poll f h c u (S (ds_size d))) d text cs CompletePanics d' -> handles f h d c u text cs None
| handles_wait h d c u text cs h' c' u' d' text' cs' r :
    acts (hf_poll f h c u (S (ds_size d))) d text cs (Waits h' c' u') d' ->
    handles f h' d' c' u' text' cs' r -> handles f h d c u (text ++ text') (cs ++ cs') r.
(** What there is to see of a session with the user code [ac]: its futures are run
    one after the other, each from its start to its end, the configuration and the
    connection metadata being those the one before left.  [over]: [complete]
    panicked.  The answers are what they gave. *)
Inductive called {C U} (ac : aconfig C U) : C -> U -> list (obs U) -> list (answer C U) -> bool -> C -> U -> Prop :=
| ca_nil c u : called ac c u [] [] false c u
| ca_write c u b t l over c' u' : called ac c u t l over c' u' -> called ac c u (OWrite b :: t) l over c' u'
| ca_new_mail c u c1 t l over c' u' : ends_with (ac_new_mail ac) (uf_start _) c tt c1 ->
    called ac c1 u t l over c' u' -> called ac c u (ONewMail :: t) (ANewMail c1 :: l) over c' u'
| ca_from c u from d c1 u1 from1 change t l over c' u' : ends_with (ac_filter_from ac) (uf_start _) (c, u, from) d (c1, u1, from1) -> change from = from1 ->
    called ac c1 u1 t l over c' u' -> called ac c u (OFrom u from d u1 from1 :: t) (AFrom d c1 u1 change :: l) over c' u'
| ca_to c u m to d c1 u1 m1 to1 change t l over c' u' : ends_with (ac_filter_to ac) (uf_start _) (c, u, (m, to)) d (c1, u1, (m1, to1)) -> change (m, to) = (m1, to1) ->
    called ac c1 u1 t l over c' u' -> called ac c u (OTo u m to d u1 m1 to1 :: t) (ATo d c1 u1 change :: l) over c' u'
| ca_data c u m d c1 u1 m1 change t l over c' u' : ends_with (ac_filter_data ac) (uf_start _) (c, u, m) d (c1, u1, m1) -> change m = m1 ->
    called ac c1 u1 t l over c' u' -> called ac c u (OFilterData u m d u1 m1 :: t) (AData d c1 u1 change :: l) over c' u'
| ca_handle c u m p text cs v c1 u1 uses verdict t l over c' u' :
    handles (ac_handle_mail ac m) (hf_start _) (ds_new p) c u text cs (Some (v, c1, u1)) -> verdict cs = v ->
    called ac c1 u1 t l over c' u' -> called ac c u (OHandle u m text cs (Some (v, u1)) :: t) (AHandle uses verdict c1 u1 :: l) over c' u'
| ca_panic c u m p text cs a : handles (ac_handle_mail ac m) (hf_start _) (ds_new p) c u text cs None ->
    called ac c u [OHandle u m text cs None] [a] true c u.

(** No future of the configuration panics of its own accord. *)
Definition future_safe {S R} (f : ufuture S R) : Prop := forall l s, fst (fst (uf_poll f l s)) <> Ready None.
Fixpoint poll_safe {L C U} (h : hpoll L C U) : Prop :=
  match h with
  | PNext k => forall r, poll_safe (k r)
  | PComplete k => forall ok, poll_safe (k ok)
  | PWait _ _ _ | PReturn _ _ _ => True
  | PPanic => False
  end.
Record user_safe {C U} (ac : aconfig C U) : Prop := {
  us_safe_new_mail : future_safe (ac_new_mail ac);
  us_safe_filter_from : future_safe (ac_filter_from ac);
  us_safe_filter_to : future_safe (ac_filter_to ac);
  us_safe_filter_data : future_safe (ac_filter_data ac);
  us_safe_handle_mail : forall m l c u n, poll_safe (hf_poll (ac_handle_mail ac m) l c u n)
}.

(** ** User code that keeps the rules *)
(** [handle_mail] reads its stream to the end, completes it once and then returns
    (the comment in config.rs:41-43).  It may wait at any moment.  [stage]: how far
    it is in a state.  [Q]: what it may return, given the result of [complete]. *)
Inductive stage := Reading | Ended | Closed (ok : bool).
Fixpoint in_order {L C U} (Q : bool -> decision -> Prop) (at_ : L -> stage) (now : stage) (h : hpoll L C U) : Prop :=
  match h with
  | PNext k => now = Reading /\ in_order Q at_ Reading (k Pending)
               /\ (forall b, in_order Q at_ Reading (k (Ready (Some b)))) /\ in_order Q at_ Ended (k (Ready None))
  | PComplete k => now = Ended /\ forall ok, in_order Q at_ (Closed ok) (k ok)
  | PWait l _ _ => at_ l = now
  | PReturn d _ _ => exists ok, now = Closed ok /\ Q ok d
  | PPanic => False
  end.
Definition drains_future {C U} (Q : bool -> decision -> Prop) (f : hfuture C U) : Prop :=
  exists at_, at_ (hf_start f) = Reading /\ forall l c u n, in_order Q at_ (at_ l) (hf_poll f l c u n).
Definition future_refuses {S} (P : N * bytes -> Prop) (f : ufuture S decision) : Prop :=
  forall l s l' s' d, uf_poll f l s = (Ready (Some d), l', s') -> on_refusal P d.
Definition ok_replies {C U} (P : N * bytes -> Prop) (cfg : config C U) : Prop := forall c,
  Forall P [cf_welcome_banner cfg c; cf_mail_okay cfg c; cf_rcpt_okay cfg c; cf_data_okay cfg c; cf_mail_accepted cfg c;
            cf_already_in_mail cfg c; cf_rcpt_before_mail cfg c; cf_data_before_rcpt cfg c; cf_data_before_mail cfg c;
            cf_command_unimplemented cfg c; cf_command_unrecognized cfg c].
Record lawful {C U} (P : N * bytes -> Prop) (ac : aconfig C U) : Prop := {
  la_safe : user_safe ac;
  la_replies : ok_replies P (ac_replies ac);
  la_from : future_refuses P (ac_filter_from ac);
  la_to : future_refuses P (ac_filter_to ac);
  la_data : future_refuses P (ac_filter_data ac);
  la_handle : forall m, drains_future (fun _ => on_refusal P) (ac_handle_mail ac m)
}.
(** It accepts everything and rewrites nothing. *)
Definition future_accepts {C U X} (f : ufuture (C * U * X) decision) : Prop :=
  forall l c u v r l' c' u' v', uf_poll f l (c, u, v) = (r, l', (c', u', v')) ->
  v' = v /\ forall d, r = Ready (Some d) -> d = Accept.
Record accepting_user {C U} (P : N * bytes -> Prop) (ac : aconfig C U) : Prop := {
  au_safe : user_safe ac;
  au_replies : ok_replies P (ac_replies ac);
  au_from : future_accepts (ac_filter_from ac);
  au_to : future_accepts (ac_filter_to ac);
  au_data : future_accepts (ac_filter_data ac);
  au_handle : forall m, drains_future (fun ok d => on_refusal P d /\ (ok = true -> d = Accept)) (ac_handle_mail ac m)
}.
(** Its filters leave the metadata they are shown alone; no other rule. *)
Definition keeping_user {C U} (ac : aconfig C U) : Prop :=
  (forall l c u m t r l' c' u' m' t', uf_poll (ac_filter_to ac) l (c, u, (m, t)) = (r, l', (c', u', (m', t'))) -> m' = m)
  /\ (forall l c u m r l' c' u' m', uf_poll (ac_filter_data ac) l (c, u, m) = (r, l', (c', u', m')) -> m' = m).
(** The answers of such. *)
Definition lawful_answer {C U} (P : N * bytes -> Prop) (a : answer C U) : Prop :=
  match a with
  | ANewMail _ => True
  | AFrom d _ _ _ | ATo d _ _ _ | AData d _ _ _ => on_refusal P d
  | AHandle uses verdict _ _ => uses = [UDrain; UComplete] /\ forall ok, on_refusal P (verdict [ok])
  end.
Definition accepting_answer {C U} (P : N * bytes -> Prop) (a : answer C U) : Prop :=
  match a with
  | ANewMail _ => True
  | AFrom d _ _ change => d = Accept /\ forall v, change v = v
  | ATo d _ _ change => d = Accept /\ forall v, change v = v
  | AData d _ _ change => d = Accept /\ forall v, change v = v
  | AHandle uses verdict _ _ => uses = [UDrain; UComplete] /\ forall ok, on_refusal P (verdict [ok]) /\ (ok = true -> verdict [ok] = Accept)
  end.
Definition keeping_answer {C U} (a : answer C U) : Prop :=
  match a with
  | ATo _ _ _ change => forall m t, fst (change (m, t)) = m
  | AData _ _ _ change => forall m, change m = m
  | _ => True
  end.
Definition any_answer {C U} (a : answer C U) : Prop := True.

(** ** Comparing sessions *)
(** [r], [x]: a session with the user code [ac], polled some times.  [y]: how a
    session with a configuration of answers ends; [more] and [morew] are the answers
    not given, of the configuration and of the writer.  If the first is over, the
    second ends the same way in the same state.  If not, what there was to see so
    far is a beginning of what there is to see of the second.  After a panic only
    what there was to see counts, and if the user's code panics by itself it is a
    beginning. *)
Definition is_beginning {C U W} (seen : list (obs U)) (s : @st C U W) : Prop := exists rest, st_trace s = seen ++ rest.
Definition matches {C U K A} (ac : aconfig C U) (r : outcome unit + @async C U (K * list call) unit) (x : @world C U (K * list call))
  (more : list A) (morew : list bool) (y : outcome unit * @st (C * list A) U (list bool)) : Prop :=
  match r with
  | inl Panic => (fst y = Panic /\ st_trace (snd y) = trace_of x) \/ (~ user_safe ac /\ is_beginning (trace_of x) (snd y))
  | inl o => fst y = o /\ st_cfg (snd y) = (st_cfg (w_st x), more) /\ st_w (snd y) = morew
      /\ st_user (snd y) = st_user (w_st x) /\ st_mail (snd y) = st_mail (w_st x) /\ st_reader (snd y) = st_reader (w_st x)
      /\ st_with (snd y) = st_with (w_st x) /\ st_trace (snd y) = trace_of x
  | inr _ => is_beginning (trace_of x) (snd y)
  end.
(** The last call of the sink was answered [Pending]. *)
Definition waiting_for_sink (h : list call) : Prop := exists h', h = h' ++ [CReady Pending] \/ h = h' ++ [CFlush Pending].
(** The answers are those of the user code.  (While the session is pending inside a
    call, that call has not been logged.) *)
Definition are_answers_of {C U W} (ac : aconfig C U) (c : C) (u : U) (r : outcome unit + @async C U W unit) (x : @world C U W) (answers : list (answer C U)) : Prop :=
  exists over c' u', called ac c u (trace_of x) answers over c' u'
  /\ match r with
     | inl Panic => True
     | inl _ => over = false /\ c' = st_cfg (w_st x) /\ u' = st_user (w_st x)
     | inr _ => over = false
     end.
