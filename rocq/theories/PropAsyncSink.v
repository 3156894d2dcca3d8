(** Properties C62 to C64 for any sink: a state machine that may also change its
    state when it answers [Pending], and may be pending for ever. *)
From Verif Require Import Bytes Nom SmtpString Message Reply Stream Interact SinkFuture RepoSessions PropServer
  SpecPrompt Async SpecAsync AsyncProofs AsyncWaits AsyncFlush PropAsync AsyncReplay AsyncContract.

Lemma polls_same {C U W A} n m (p : @async C U W A) x o x' o' y :
  after_polls n p x = (inl o, x') -> after_polls m p x = (inl o', y) -> o' = o /\ y = x'.
Proof.
  intros E F. pose proof (polls_over n (n + m) p x o x' ltac:(lia) E) as E'.
  pose proof (polls_over m (n + m) p x o' y ltac:(lia) F) as F'. rewrite E' in F'. now injection F' as -> ->.
Qed.
Lemma polls_counted_inr {C U W A} (strict : Prop) n : forall (p : @async C U W A) x p' x', good strict p -> after_polls n p x = (inr p', x') ->
  exists a s t, between x x' a s t /\ n <= count_pend a + count_true s /\ (strict -> n = count_pend a + count_true s).
Proof.
  induction n as [|n IH]; intros p x p' x' G E; cbn [after_polls] in E.
  - injection E as <- <-. exists [], [], []. split; [apply between_refl|]. cbn. auto.
  - destruct (poll_async p x) as [[o|q] x1] eqn:P; [discriminate|]. destruct (good_poll _ p G _ _ _ P) as (a & s & t & B & G' & H & Hw).
    destruct (IH _ _ _ _ G' E) as (a' & s' & t' & B' & H1 & H2).
    exists (a ++ a'), (s ++ s'), (t ++ t'). split; [eapply between_trans; eassumption|].
    rewrite count_pend_app, count_true_app. split; [lia|]. intros Hs. specialize (H2 Hs). pose proof (count_waits _ _ (Hw Hs)). lia.
Qed.

(** The three ways to look at the other session. *)
Definition plain (h : list call) (a : list bool) : list bool := a.
Definition dirty (h : list call) : bool :=
  fold_left (fun d c => match c with CSend _ _ => true | CFlush (Ready true) => false | _ => d end) h false.
Definition tracked (h : list call) (a : list bool) : list bool * bool := (a, dirty h).
Lemma lock_plain {C U K} (cfg : config C U) (ks : @ksink K) :
  locked (K := K) plain (interact_future cfg (any_sink (recording ks))) (interact_future cfg (scheduled replay)).
Proof. now apply lock_future. Qed.
Lemma dirty_snoc h c : dirty (h ++ [c]) = match c with CSend _ _ => true | CFlush (Ready true) => false | _ => dirty h end.
Proof. unfold dirty. now rewrite fold_left_app. Qed.
Lemma lock_tracked {C U K} (cfg : config C U) (ks : @ksink K) :
  locked (K := K) tracked (interact_future cfg (any_sink (recording ks))) (interact_future cfg (scheduled (track replay))).
Proof.
  apply lock_future; unfold tracked; intros; rewrite ?dirty_snoc; reflexivity.
Qed.
Lemma dirty_flushed h : dirty h = false -> flushed h.
Proof.
  induction h as [|c h IH] using rev_ind; intros D.
  - exists [], []. split; [reflexivity|]. split; [now left|]. intros b ok [].
  - rewrite dirty_snoc in D. destruct c as [r|b ok|r]; [|discriminate|].
    + destruct (IH D) as (p & q & -> & H1 & H2). exists p, (q ++ [CReady r]). split; [symmetry; apply app_assoc|]. split; [exact H1|].
      intros b ok H. apply in_app_or in H. destruct H as [H|[H|[]]]; [now apply H2 in H|discriminate].
    + destruct r as [|[|]].
      * destruct (IH D) as (p & q & -> & H1 & H2). exists p, (q ++ [CFlush Pending]). split; [symmetry; apply app_assoc|]. split; [exact H1|].
        intros b ok H. apply in_app_or in H. destruct H as [H|[H|[]]]; [now apply H2 in H|discriminate].
      * exists (h ++ [CFlush (Ready true)]), []. split; [symmetry; apply app_nil_r|]. split; [right; now exists h|]. intros b ok [].
      * destruct (IH D) as (p & q & -> & H1 & H2). exists p, (q ++ [CFlush (Ready false)]). split; [symmetry; apply app_assoc|]. split; [exact H1|].
        intros b ok H. apply in_app_or in H. destruct H as [H|[H|[]]]; [now apply H2 in H|discriminate].
Qed.

(** ** C62 *)
(** A session polled [n] times, with any sink.  If it is over, it is the session
    with a writer that is always ready and gives the answers the sink gave in the
    end: when and how often the sink, the client or the configuration were not
    ready makes no difference.  If it is not over, each poll ended with one of the
    [Pending] answers.  The sink was given what the trace says. *)
Theorem C62_any_sink : forall C U K (cfg : config C U) (ks : @ksink K) incoming k0 c u sched n r x,
  let start := world_new incoming (k0, []) c u sched in
  after_polls n (interact_future cfg (any_sink (recording ks))) start = (r, x) ->
  writes (trace_of x) = sent (calls x)
  /\ match r with
     | inl o => exists s, interact cfg replay incoming (final_answers (calls x)) c u = (o, s)
                /\ st_w s = [] /\ same_but_writer s (w_st x)
     | inr _ => exists answers asked seen, between start x answers asked seen
                /\ n <= count_pend answers + count_true asked + not_ready (calls x)
                /\ (awaiting cfg -> n = count_pend answers + count_true asked + not_ready (calls x))
     end.
Proof.
  intros C U K cfg ks incoming k0 c u sched n r x start E.
  destruct (locked_polls _ n _ _ (lock_plain cfg ks) _ _ _ E) as (rec & us & sch & t & r' & [S1 S2 S3 S4 S5] & R & H).
  cbn in S1, S3. split; [unfold trace_of; rewrite S1, S3; exact S4|]. specialize (H [] []). rewrite !app_nil_r in H.
  change (as_v plain (w_st start) (final_answers rec)) with (w_st (world_new incoming (final_answers rec) c u sch)) in H.
  change (World (w_st (world_new incoming (final_answers rec) c u sch)) sch) with (world_new incoming (final_answers rec) c u sch) in H.
  destruct r as [o|q], r' as [o'|q']; cbn in R; try contradiction.
  - subst o'. rewrite S1. clear S1.
    destruct (C62_same_session_under_every_schedule C U _ cfg replay incoming (final_answers rec) c u sch) as (y & a & s & tt' & m & B & F & G & _).
    destruct (polls_same _ _ _ _ _ _ _ _ F H) as [Eo Ey].
    exists (snd (interact cfg replay incoming (final_answers rec) c u)).
    split.
    + rewrite Eo. destruct (interact cfg replay incoming (final_answers rec) c u); reflexivity.
    + rewrite <- G, <- Ey. cbn. split; [reflexivity|]. now repeat split.
  - destruct (polls_counted_inr _ _ _ _ _ _ (good_future cfg replay _ (fun Ha => Ha)) H) as (a & s & t' & (B1 & B2 & B3) & En & Ew).
    cbn in B2. rewrite app_nil_r in B2. subst s. exists a, us, t. split; [split; [exact B1|]; split; [exact S2|exact S3]|].
    rewrite S1. rewrite S5 in En, Ew. split; [lia|]. intros Ha. rewrite (Ew Ha). lia.
Qed.
Print Assumptions C62_any_sink.
(** So it ends, unless the sink is not ready more and more often. *)
Theorem C62_any_sink_ends : forall C U K (cfg : config C U) (ks : @ksink K) incoming k0 c u sched n r x,
  after_polls n (interact_future cfg (any_sink (recording ks))) (world_new incoming (k0, []) c u sched) = (r, x) ->
  count_pend (src_events incoming) + count_true sched + not_ready (calls x) < n -> exists o, r = inl o.
Proof.
  intros C U K cfg ks incoming k0 c u sched n r x E L.
  destruct (C62_any_sink C U K cfg ks incoming k0 c u sched n r x E) as [_ H]. destruct r as [o|q]; [now exists o|].
  destruct H as (a & s & t & (B1 & B2 & _) & En & _). unfold events_of in B1. cbn in B1, B2.
  rewrite B1, B2, count_pend_app, count_true_app in L. lia.
Qed.
Print Assumptions C62_any_sink_ends.

(** ** C63 *)
(** Why a poll returns, with any sink: with the result, if nobody asked was pending;
    with [Pending] if exactly one answer, the last of its kind, was [Pending]. *)
Theorem C63_any_sink_pending_for_a_reason : forall C U K (cfg : config C U) (ks : @ksink K) incoming k0 c u sched k p x r x',
  awaiting cfg ->
  after_polls k (interact_future cfg (any_sink (recording ks))) (world_new incoming (k0, []) c u sched) = (inr p, x) ->
  poll_async p x = (r, x') ->
  exists answers asked seen called, between x x' answers asked seen /\ calls x' = calls x ++ called
    /\ match r with
       | inl _ => all_ready answers asked /\ not_ready called = 0
       | inr _ => (source_pending answers asked /\ not_ready called = 0)
                  \/ (user_pending answers asked /\ not_ready called = 0)
                  \/ (all_ready answers asked /\ exists before, not_ready before = 0
                      /\ (called = before ++ [CReady Pending] \/ called = before ++ [CFlush Pending]))
       end.
Proof.
  intros C U K cfg ks incoming k0 c u sched k p x r x' Ha H E.
  destruct (locked_polls _ k _ _ (lock_plain cfg ks) _ _ _ H) as (rec & us & sch & t & q' & S & R & P).
  destruct q' as [o|p0]; [contradiction|]. cbn in R.
  destruct (locked_poll _ _ _ R _ _ _ E) as (rec2 & us2 & sch2 & t2 & r' & [S1 S2 S3 S4 S5] & R2 & T2 & P2).
  specialize (P2 [] []). rewrite !app_nil_r in P2.
  specialize (P sch2 (final_answers rec2)).
  assert (G : good True p0) by (exact (polls_good _ _ _ _ _ _ (good_future cfg replay True (fun _ => Ha)) P)).
  destruct (good_poll _ p0 G _ _ _ P2) as (a & s & t' & (B1 & B2 & B3) & W).
  cbn in B2. rewrite app_nil_r in B2. subst s.
  exists a, us2, t2, rec2. split; [split; [exact B1|]; split; [exact S2|exact S3]|]. split; [exact S1|].
  assert (Fus : count_true us2 = 0 -> Forall (fun b => b = false) us2).
  { clear. induction us2 as [|[|] l IH]; cbn; [constructor|discriminate|]. intros Z. constructor; [reflexivity|]. now apply IH. }
  destruct r as [o|p'], r' as [o'|q']; cbn in R2; try contradiction.
  - destruct (W I) as [W1 W2]. destruct T2 as [T1 T2]. split; [|exact T1]. split; [exact W1|]. now apply Fus.
  - destruct W as (_ & _ & W). specialize (W I). destruct T2 as [T1 T2].
    destruct W as [(b & -> & [W1 W2])|(b & Es & [W1 W2])].
    + assert (Z : count_true sch2 = 0).
      { clear - W2. induction W2 as [|b l -> _ IH]; [reflexivity|exact IH]. }
      left. split; [|lia]. exists b. split; [reflexivity|]. split; [exact W1|]. apply Fus. lia.
    + assert (Z : count_true sch2 = 1).
      { rewrite Es, count_true_app. assert (Zb : count_true b = 0) by (clear - W2; induction W2 as [|b l -> _ IH]; [reflexivity|exact IH]). cbn. lia. }
      destruct T1 as [T1|(b1 & cl & -> & T1 & T3)].
      * right. left. split; [|exact T1]. destruct T2 as [T2|(b2 & -> & T2)]; [lia|].
        exists b2. split; [reflexivity|]. split; [exact W1|]. clear - T2. induction b2 as [|[|] l IH]; cbn in *; [constructor|discriminate|]. constructor; [reflexivity|]. now apply IH.
      * right. right. rewrite not_ready_app in S5. split; [split; [exact W1|apply Fus; lia]|]. exists b1. split; [exact T1|].
        destruct cl as [[|]|b0 ok|[|]]; cbn in T3; try discriminate; [now left|now right].
Qed.
Print Assumptions C63_any_sink_pending_for_a_reason.
(** While it waits for the client, nothing is kept back: not in the adapter, and
    after the last item it was given the sink has said that all is flushed. *)
Theorem C63_any_sink_flushed_while_waiting_for_input : forall C U K (cfg : config C U) (ks : @ksink K) incoming k0 c u sched k p x p' x' before asked seen,
  awaiting cfg ->
  after_polls k (interact_future cfg (any_sink (recording ks))) (world_new incoming (k0, []) c u sched) = (inr p, x) ->
  poll_async p x = (inr p', x') ->
  between x x' (before ++ [Pend]) asked seen ->
  st_with (w_st x') = None /\ flushed (calls x').
Proof.
  intros C U K cfg ks incoming k0 c u sched k p x p' x' before asked seen Ha H E (B1 & _ & _).
  destruct (locked_polls _ k _ _ (lock_tracked cfg ks) _ _ _ H) as (rec & us & sch & t & q' & S & R & P).
  destruct q' as [o|p0]; [contradiction|]. cbn in R.
  destruct (locked_poll _ _ _ R _ _ _ E) as (rec2 & us2 & sch2 & t2 & r' & [S1 S2 S3 S4 S5] & R2 & T2 & P2).
  destruct r' as [o|p0']; [contradiction|].
  specialize (P2 [] []). rewrite !app_nil_r in P2. specialize (P sch2 (final_answers rec2)).
  change (World (as_v tracked (w_st (world_new incoming (k0, []) c u sched)) (final_answers rec ++ final_answers rec2)) (sch ++ sch2))
    with (world_new incoming (final_answers rec ++ final_answers rec2, false) c u (sch ++ sch2)) in P.
  destruct (C63_pending_for_a_reason _ _ _ cfg (track replay) _ _ _ _ _ _ _ _ _ _ Ha P P2) as (a & s & t' & (D1 & D2 & D3) & W).
  change (events_of (World (as_v tracked (w_st x) (final_answers rec2)) sch2)) with (events_of x) in D1.
  change (events_of (World (as_v tracked (w_st x') []) [])) with (events_of x') in D1.
  assert (Ea : a = before ++ [Pend]). { apply (app_inv_tail (events_of x')). now rewrite <- D1, B1. }
  assert (Sp : source_pending a s).
  { destruct W as [W|(b & _ & [W _])]; [exact W|]. rewrite Ea in W. apply Forall_app in W. destruct W as [_ W].
    apply Forall_inv in W. destruct W as [z W]. discriminate. }
  destruct (C63_flushed_while_waiting_for_input _ _ _ cfg replay _ _ _ _ _ _ _ _ _ _ a s t' Ha P P2) as [F1 F2].
  - split; [exact D1|]. split; [exact D2|exact D3].
  - exact Sp.
  - split; [exact F1|]. apply dirty_flushed. exact F2.
Qed.
Print Assumptions C63_any_sink_flushed_while_waiting_for_input.

(** ** C64 *)
(** A session dropped while it waits, with any sink: whatever the sink would have
    answered from then on, what was done is a beginning of the whole session. *)
Theorem C64_any_sink_dropped : forall C U K (cfg : config C U) (ks : @ksink K) incoming k0 c u sched k p x more,
  after_polls k (interact_future cfg (any_sink (recording ks))) (world_new incoming (k0, []) c u sched) = (inr p, x) ->
  (exists rest, st_trace (snd (interact cfg replay incoming (final_answers (calls x) ++ more) c u)) = trace_of x ++ rest)
  /\ (exists used, src_events incoming = used ++ events_of x /\ exists used', used ++ used' ++ src_events (pr_stream (st_reader (snd (interact cfg replay incoming (final_answers (calls x) ++ more) c u)))) = src_events incoming)
  /\ exists asked, sched = asked ++ w_sched x.
Proof.
  intros C U K cfg ks incoming k0 c u sched k p x more H.
  destruct (locked_polls _ k _ _ (lock_plain cfg ks) _ _ _ H) as (rec & us & sch & t & q' & [S1 S2 S3 S4 S5] & R & P).
  destruct q' as [o|p0]; [contradiction|]. cbn in S1. rewrite S1. specialize (P [] more).
  destruct (C64_dropped_session_is_a_beginning _ _ _ cfg replay incoming (final_answers rec ++ more) c u (sch ++ []) k _ _ P) as (D1 & D2 & _).
  split; [exact D1|]. split; [exact D2|]. now exists us.
Qed.
Print Assumptions C64_any_sink_dropped.

(** ** C59 *)
(** At every moment of every session any sink has been used as its contract
    demands, and [interact] returns the sink's error exactly if it answered one. *)
Theorem C59_any_sink : forall C U K (cfg : config C U) (ks : @ksink K) incoming k0 c u sched n r x,
  after_polls n (interact_future cfg (any_sink (recording ks))) (world_new incoming (k0, []) c u sched) = (r, x) ->
  contract (calls x) /\ (r = inl WriteErr <-> In false (final_answers (calls x))).
Proof.
  intros C U K cfg ks incoming k0 c u sched n r x E.
  assert (G0 : G false (w_st (world_new incoming (k0, @nil call) c u sched))).
  { split; cbn; [|intros [H|H]; [discriminate|now elim H]]. split; [|intros []].
    split; [intros [|? ?] b ok q Eq; discriminate|]. intros [|? ?] d q Eq; discriminate. }
  pose proof (ct_polls _ n _ _ (ct_future cfg ks) _ _ _ G0 E) as H.
  assert (N : r <> inl WriteErr -> G false (w_st x)) by (destruct r as [[| | |]|]; intros Hn; try exact H; now elim Hn).
  destruct r as [[| | |]|]; cbn in H.
  all: try (destruct H as [[H1 H2] _]; split; [exact H1|]; split; [discriminate|]; intros H3; now elim H2).
  destruct H as [H1 H2]. split; [exact H1|]. now split.
Qed.
Print Assumptions C59_any_sink.

(** ** A case *)
(** A sink with a buffer of one item: it is ready only when the buffer is empty,
    and each poll that finds it full works on it and answers [Pending] - so its
    state changes while it is not ready.  It gives up when asked to take a tenth
    item. *)
Record slow := Slow { sl_full : bool; sl_taken : nat }.
Definition slow_sink : @ksink slow := {|
  k_ready := fun k => if sl_full k then (Pending, Slow false (sl_taken k)) else (Ready true, k);
  k_start := fun k b => if sl_taken k <? 9 then (PutOk, Slow true (S (sl_taken k))) else (PutRefused, k);
  k_flush := fun k => if sl_full k then (Pending, Slow false (sl_taken k)) else (Ready true, k)
|}.
Definition slow_future := interact_future test_config (any_sink (recording slow_sink)).
Definition slow_start : @world mails unit (slow * list call) := world_new (src_of async_events) (Slow false 0, []) [] tt [true; false; true].
(** The session of C62 again: not over after 12 polls, which is what there were
    [Pending] answers; then over, with the same mail and replies. *)
Example C62_any_sink_example :
  let y := snd (after_polls 12 slow_future slow_start) in
  let z := snd (after_polls 13 slow_future slow_start) in
  (exists p, after_polls 12 slow_future slow_start = (inr p, y))
  /\ after_polls 13 slow_future slow_start = (inl (Ret tt), z)
  /\ count_pend async_events = 5 /\ count_true [true; false; true] = 2 /\ not_ready (calls z) = 5
  /\ length (sent (calls z)) = 5
  /\ st_trace (w_st z) = st_trace (snd (interact test_config replay (src_of async_events) (final_answers (calls z)) [] tt)).
Proof.
  cbv zeta. split; [|split; [|split; [|split; [|split; [|split]]]]].
  - apply still_pending. vm_compute. reflexivity.
  - apply now_over. vm_compute. reflexivity.
  - reflexivity.
  - reflexivity.
  - vm_compute. reflexivity.
  - vm_compute. reflexivity.
  - vm_compute. reflexivity.
Qed.
