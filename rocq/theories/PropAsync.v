(** Properties C62 to C64: [interact] as a future, polled by an executor. *)
From Verif Require Import Bytes Nom SmtpString Message Reply Stream Interact RepoSessions PropServer
  SpecPrompt Async SpecAsync AsyncProofs AsyncWaits AsyncFlush.

Section Polls.
Context {C U W : Type}.
Notation world := (@world C U W).
Notation async := (@async C U W).
Lemma polls_counted {A} (strict : Prop) n : forall (p : async A) x o x', good strict p -> after_polls n p x = (inl o, x') ->
  exists a s t m, between x x' a s t
    /\ after_polls m p x = (inl o, x')
    /\ (forall k, k < m -> exists p' y, after_polls k p x = (inr p', y))
    /\ m <= S (count_pend a + count_true s) /\ (strict -> m = S (count_pend a + count_true s)).
Proof.
  induction n as [|n IH]; intros p x o x' G E; [discriminate|].
  cbn [after_polls] in E. destruct (poll_async p x) as [r x1] eqn:P. destruct (good_poll _ p G x r x1 P) as (a & s & t & B & H).
  destruct r as [o'|p'].
  - injection E as -> ->. exists a, s, t, 1. split; [exact B|]. split; [cbn; now rewrite P|].
    split; [intros [|k] L; [exists p, x; reflexivity|lia]|]. split; [lia|]. intros Hs. now rewrite (count_ready _ _ (H Hs)).
  - destruct H as [G' [H Hw]]. destruct (IH _ _ _ _ G' E) as (a' & s' & t' & m & B' & H1 & H2 & H3 & H4).
    exists (a ++ a'), (s ++ s'), (t ++ t'), (S m). split; [eapply between_trans; eassumption|].
    split; [cbn [after_polls]; rewrite P; exact H1|].
    rewrite count_pend_app, count_true_app. split; [|split; [lia|]].
    + intros [|k] L; [now exists p, x|]. cbn [after_polls]. rewrite P. apply H2. lia.
    + intros Hs. specialize (H4 Hs). pose proof (count_waits _ _ (Hw Hs)). lia.
Qed.
(** Polling on from a later moment. *)
Lemma polls_split {A} k : forall n (p : async A) x p1 x1, after_polls k p x = (inr p1, x1) ->
  after_polls (k + n) p x = after_polls n p1 x1.
Proof.
  induction k as [|k IH]; intros n p x p1 x1 E; cbn [after_polls Nat.add] in *.
  - now injection E as -> ->.
  - destruct (poll_async p x) as [[o|p'] x']; [discriminate|]. now apply IH.
Qed.
Lemma polls_good {A} (strict : Prop) k : forall (p : async A) x p1 x1, good strict p -> after_polls k p x = (inr p1, x1) -> good strict p1.
Proof.
  induction k as [|k IH]; intros p x p1 x1 G E; cbn [after_polls] in E.
  - now injection E as -> ->.
  - destruct (poll_async p x) as [[o|p'] x'] eqn:P; [discriminate|]. destruct (good_poll _ p G _ _ _ P) as (a & s & t & _ & G' & _). eauto.
Qed.
Lemma polls_over {A} n m (p : async A) x o x' : n <= m -> after_polls n p x = (inl o, x') -> after_polls m p x = (inl o, x').
Proof.
  revert m p x. induction n as [|n IH]; intros m p x L E; [discriminate|]. destruct m as [|m]; [lia|]. cbn [after_polls] in *.
  destruct (poll_async p x) as [[o1|p'] x1]; [exact E|]. apply IH; [lia|exact E].
Qed.
End Polls.

(** ** C62: an executor has no influence on a session *)
(** However often and whenever the incoming stream, the writer and the futures of
    the configuration answer [Pending]: after some number of polls, and not before,
    the future is over, and its result, and the state it leaves, are those of
    [interact].  The number is at most one more than that of the [Pending] answers,
    and exactly that if the handlers wait for what they read. *)
Theorem C62_same_session_under_every_schedule : forall C U W (cfg : config C U) (wr : writer W) incoming w c u sched,
  let start := world_new incoming w c u sched in
  let r := interact cfg wr incoming w c u in
  exists x answers asked seen n,
    between start x answers asked seen
    /\ after_polls n (interact_future cfg (scheduled wr)) start = (inl (fst r), x)
    /\ w_st x = snd r
    /\ (forall k, k < n -> exists p y, after_polls k (interact_future cfg (scheduled wr)) start = (inr p, y))
    /\ n <= S (count_pend answers + count_true asked)
    /\ (awaiting cfg -> n = S (count_pend answers + count_true asked)).
Proof.
  intros C U W cfg wr incoming w c u sched start r.
  destruct (sim_interact cfg wr incoming w c u (C35_sessions_end C U W cfg wr incoming w c u) sched) as [sched' R].
  destruct (runs_polls _ _ _ _ R) as [n E].
  destruct (polls_counted (awaiting cfg) n _ _ _ _ (good_future cfg wr _ (fun H => H)) E) as (a & s & t & m & B & H1 & H2 & H3).
  exists (World (snd r) sched'), a, s, t, m. split; [exact B|]. split; [exact H1|]. split; [reflexivity|]. split; [exact H2|exact H3].
Qed.
Print Assumptions C62_same_session_under_every_schedule.
(** So a session cannot hang as long as each thing it waits for wakes it up: a
    number of polls that is known beforehand is enough. *)
Theorem C62_enough_polls : forall C U W (cfg : config C U) (wr : writer W) incoming w c u sched n,
  S (count_pend (src_events incoming) + count_true sched) <= n ->
  exists x, after_polls n (interact_future cfg (scheduled wr)) (world_new incoming w c u sched) = (inl (fst (interact cfg wr incoming w c u)), x)
    /\ w_st x = snd (interact cfg wr incoming w c u).
Proof.
  intros C U W cfg wr incoming w c u sched n L.
  destruct (C62_same_session_under_every_schedule C U W cfg wr incoming w c u sched) as (x & a & s & t & m & (B1 & B2 & _) & H1 & H2 & _ & H3 & _).
  exists x. split; [|exact H2]. refine (polls_over _ _ _ _ _ _ _ H1).
  unfold events_of in B1. cbn in B1, B2. rewrite B1, B2, count_pend_app, count_true_app in L. lia.
Qed.
Print Assumptions C62_enough_polls.
(** The handler of the example waits for what it reads. *)
Lemma test_awaits : awaiting test_config.
Proof. intros c u m. cbn. intros items over ok. destruct ok; cbn; [|exact I]. destruct (find_sub _ _); exact I. Qed.
(** A session during which everybody is sometimes not ready. *)
Definition async_events : list event :=
  [Pend; Chunk (ln "MAIL FROM:<>" ++ ln "RCPT TO:<a@b.cd>"); Pend; Pend; Chunk (ln "DATA" ++ ln "hello");
   Pend; Chunk (s2b "." ++ CRLF ++ s2b "NO"); Pend].
Definition async_sched : list bool := [true; false; true; true; false; false; true; false; true].
Definition async_start : @world (mails) unit unit := world_new (src_of async_events) tt [] tt async_sched.
(** What came of some polls: the result, if it is there, and the world. *)
Definition told_result {C U W A} (r : (outcome A + @async C U W A) * @world C U W) : option (outcome A) * @world C U W :=
  (match fst r with inl o => Some o | inr _ => None end, snd r).
Lemma still_pending {C U W A} (r : (outcome A + @async C U W A) * @world C U W) x :
  told_result r = (None, x) -> exists p, r = (inr p, x).
Proof. destruct r as [[o|p] y]; [discriminate|]. intros E. injection E as ->. now exists p. Qed.
Lemma now_over {C U W A} (r : (outcome A + @async C U W A) * @world C U W) o x :
  told_result r = (Some o, x) -> r = (inl o, x).
Proof. destruct r as [[o'|p] y]; [|discriminate]. intros E. now injection E as -> ->. Qed.
Example C62_example :
  let r := interact test_config test_writer (src_of async_events) tt [] tt in
  exists x, after_polls 11 (interact_future test_config (scheduled test_writer)) async_start = (inl (Ret tt), x)
  /\ fst r = Ret tt /\ w_st x = snd r /\ st_cfg (snd r) <> [] /\ w_sched x = []
  /\ exists p y, after_polls 10 (interact_future test_config (scheduled test_writer)) async_start = (inr p, y).
Proof.
  eexists. split; [apply now_over; vm_compute; reflexivity|]. split; [vm_compute; reflexivity|]. split; [vm_compute; reflexivity|].
  split; [vm_compute; discriminate|]. split; [vm_compute; reflexivity|].
  edestruct (still_pending (after_polls 10 (interact_future test_config (scheduled test_writer)) async_start)) as [p E];
    [vm_compute; reflexivity|]. exists p. eexists. exact E.
Qed.

(** ** C63: why a session waits *)
(** A poll returns only when it must: with the result, nobody having answered
    [Pending]; or with [Pending], because one thing, the last of its kind that was
    asked, answered [Pending] and will wake the task. *)
Theorem C63_pending_for_a_reason : forall C U W (cfg : config C U) (wr : writer W) incoming w c u sched k p x r x',
  awaiting cfg ->
  after_polls k (interact_future cfg (scheduled wr)) (world_new incoming w c u sched) = (inr p, x) ->
  poll_async p x = (r, x') ->
  exists answers asked seen, between x x' answers asked seen
    /\ match r with
       | inl _ => all_ready answers asked
       | inr _ => source_pending answers asked \/ user_pending answers asked
       end.
Proof.
  intros C U W cfg wr incoming w c u sched k p x r x' Ha H E.
  destruct (good_poll True p (polls_good _ _ _ _ _ _ (good_future cfg wr True (fun _ => Ha)) H) _ _ _ E) as (a & s & t & B & G).
  exists a, s, t. split; [exact B|]. destruct r; [exact (G I)|]. destruct G as (_ & _ & G). exact (G I).
Qed.
Print Assumptions C63_pending_for_a_reason.
(** While it waits for the client, the client has been sent everything: no reply,
    nor part of one, is kept back. *)
Theorem C63_flushed_while_waiting_for_input : forall C U W (cfg : config C U) (wr : writer W) incoming w c u sched k p x p' x' answers asked seen,
  awaiting cfg ->
  after_polls k (interact_future cfg (scheduled (track wr))) (world_new incoming (w, false) c u sched) = (inr p, x) ->
  poll_async p x = (inr p', x') ->
  between x x' answers asked seen -> source_pending answers asked ->
  all_flushed (w_st x').
Proof.
  intros C U W cfg wr incoming w c u sched k p x p' x' a s t Ha H E (B & _ & _) (b & -> & _).
  assert (F : exists P, fl true P p /\ known P (w_st x)).
  { assert (G : forall n (q : @async C U (W * bool) unit) (y : @world C U (W * bool)), (exists P, fl true P q /\ known P (w_st y)) -> forall p x, after_polls n q y = (inr p, x) -> exists P, fl true P p /\ known P (w_st x)).
    { induction n as [|n IH]; intros q y (P & F1 & F2) p1 x1 E1; cbn [after_polls] in E1.
      - injection E1 as <- <-. exists P. now split.
      - destruct (poll_async q y) as [[o|q'] y'] eqn:E2; [discriminate|].
        destruct (fl_poll _ _ _ F1 _ _ _ F2 E2) as (P' & F3 & F4 & _). apply (IH q' y'); [now exists P'|exact E1]. }
    apply (G _ _ _ (ex_intro _ false (conj (fl_future cfg wr Ha) I)) _ _ H). }
  destruct F as (P & F1 & F2). destruct (fl_poll _ _ _ F1 _ _ _ F2 E) as (P' & _ & F4 & [->|(d & Fd & Ed)]); [exact F4|].
  rewrite Ed in B. apply app_inv_tail in B. subst d. apply Forall_app in Fd. destruct Fd as [_ Fd].
  apply Forall_inv in Fd. destruct Fd as [z Fd]. discriminate.
Qed.
Print Assumptions C63_flushed_while_waiting_for_input.
(** With nobody ever pending, the first poll finishes the session. *)
Theorem C63_ready_session_in_one_poll : forall C U W (cfg : config C U) (wr : writer W) incoming w c u sched,
  all_ready (src_events incoming) sched ->
  exists x, poll_async (interact_future cfg (scheduled wr)) (world_new incoming w c u sched) = (inl (fst (interact cfg wr incoming w c u)), x).
Proof.
  intros C U W cfg wr incoming w c u sched H. apply count_ready in H.
  destruct (C62_enough_polls C U W cfg wr incoming w c u sched 1 ltac:(lia)) as (x & E & _). exists x.
  cbn [after_polls] in E. destruct (poll_async (interact_future cfg (scheduled wr)) (world_new incoming w c u sched)) as [[o|p] y]; [exact E|discriminate].
Qed.
Print Assumptions C63_ready_session_in_one_poll.
(** Both ways to wait occur: first for the writer, then for the client. *)
Definition tracked_start : @world (mails) unit (unit * bool) := world_new (src_of async_events) (tt, false) [] tt [true].
Definition tracked_future := interact_future test_config (scheduled (track test_writer)).
Definition tracked_after (n : nat) := snd (after_polls n tracked_future tracked_start).
Lemma one_poll {C U W A} (p : @async C U W A) x r : after_polls 1 p x = r -> poll_async p x = r.
Proof. cbn. destruct (poll_async p x) as [[o|q] y]; exact (fun H => H). Qed.
Example C63_example :
  exists p1 x1 p2 x2, poll_async tracked_future tracked_start = (inr p1, x1)
  /\ between tracked_start x1 [] [true] [] /\ user_pending [] [true]
  /\ poll_async p1 x1 = (inr p2, x2)
  /\ between x1 x2 [Pend] [] [OWrite (s2b "220 test.example.org Service ready" ++ CRLF)] /\ source_pending [Pend] []
  /\ all_flushed (w_st x2).
Proof.
  assert (R : all_ready [] []) by (split; constructor).
  assert (P1 : exists p1, after_polls 1 tracked_future tracked_start = (inr p1, tracked_after 1)).
  { apply still_pending. vm_compute. reflexivity. }
  assert (P2 : exists p2, after_polls (1 + 1) tracked_future tracked_start = (inr p2, tracked_after 2)).
  { apply still_pending. vm_compute. reflexivity. }
  destruct P1 as [p1 E1]. destruct P2 as [p2 E2]. rewrite (polls_split 1 1 _ _ _ _ E1) in E2.
  exists p1, (tracked_after 1), p2, (tracked_after 2).
  split; [exact (one_poll _ _ _ E1)|]. split; [repeat split; vm_compute; reflexivity|]. split; [exists []; now split|].
  split; [exact (one_poll _ _ _ E2)|]. split; [repeat split; vm_compute; reflexivity|]. split; [exists []; now split|].
  split; vm_compute; reflexivity.
Qed.

(** ** C64: a session that is dropped *)
(** A task may be dropped while it waits (a timeout, a shutdown): what the client
    was sent, the calls of the configuration and their order, and the input used
    are a beginning of those of the whole session. *)
Theorem C64_dropped_session_is_a_beginning : forall C U W (cfg : config C U) (wr : writer W) incoming w c u sched k p x,
  after_polls k (interact_future cfg (scheduled wr)) (world_new incoming w c u sched) = (inr p, x) ->
  (exists rest, st_trace (snd (interact cfg wr incoming w c u)) = trace_of x ++ rest)
  /\ (exists used, src_events incoming = used ++ events_of x /\ exists used', used ++ used' ++ src_events (pr_stream (st_reader (snd (interact cfg wr incoming w c u)))) = src_events incoming)
  /\ exists asked, sched = asked ++ w_sched x.
Proof.
  intros C U W cfg wr incoming w c u sched k p x H.
  assert (G1 : exists a s t, between (world_new incoming w c u sched) x a s t).
  { assert (G : forall n (q : @async C U W unit) (y : @world C U W), good False q -> forall p x, after_polls n q y = (inr p, x) -> exists a s t, between y x a s t).
    { induction n as [|n IH]; intros q y G p1 x1 E1; cbn [after_polls] in E1.
      - injection E1 as <- <-. exists [], [], []. apply between_refl.
      - destruct (poll_async q y) as [[o|q'] y'] eqn:E2; [discriminate|].
        destruct (good_poll _ _ G _ _ _ E2) as (a & s & t & B & G' & _). destruct (IH _ _ G' _ _ E1) as (a' & s' & t' & B').
        exists (a ++ a'), (s ++ s'), (t ++ t'). eapply between_trans; eassumption. }
    exact (G _ _ _ (good_future cfg wr False (False_ind _)) _ _ H). }
  destruct G1 as (a & s & t & B1 & B2 & B3). cbn in B1, B2, B3.
  destruct (C62_enough_polls C U W cfg wr incoming w c u sched (k + S (count_pend (src_events incoming) + count_true sched)) ltac:(lia)) as (y & E & Ey).
  rewrite (polls_split _ _ _ _ _ _ H) in E.
  destruct (polls_counted _ _ _ _ _ _ (polls_good _ _ _ _ _ _ (good_future cfg wr False (False_ind _)) H) E) as (a' & s' & t' & m & (D1 & D2 & D3) & _).
  rewrite <- Ey. split; [exists t'; exact D3|]. split; [|now exists s].
  exists a. split; [exact B1|]. exists a'. change (src_events (pr_stream (st_reader (w_st y)))) with (events_of y).
  rewrite <- D1. symmetry. exact B1.
Qed.
Print Assumptions C64_dropped_session_is_a_beginning.
(** A session dropped while the client was thinking, in the middle of a mail. *)
Example C64_example :
  exists p x, after_polls 8 (interact_future test_config (scheduled test_writer)) async_start = (inr p, x)
  /\ length (trace_of x) = 6 /\ length (st_trace (snd (interact test_config test_writer (src_of async_events) tt [] tt))) = 10.
Proof.
  edestruct (still_pending (after_polls 8 (interact_future test_config (scheduled test_writer)) async_start)) as [p E]; [vm_compute; reflexivity|].
  exists p. eexists. split; [exact E|]. split; vm_compute; reflexivity.
Qed.
