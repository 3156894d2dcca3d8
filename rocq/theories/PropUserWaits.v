(** Property C70, continued: why a session with any user code is pending, and that
    it ends when everybody it waits for answers in the end. *)
From Verif Require Import Bytes Nom SmtpString Ip Message Reply Stream Interact SinkFuture RepoSessions SpecE2E SpecPrompt Async AsyncUser SpecAsync SpecUser SpecUserWaits
  HandlerProofs AsyncReplay AsyncUserProofs AsyncUserWaits PropAsync PropAsyncSink PropUser.

(** ** C70 *)
(** Any user code may count how often it answers [Pending]: the session is the same. *)
Theorem C70_counting : forall C U K (ac : aconfig C U) (ks : @ksink K) incoming k0 c u j n r x,
  polled n (counting ac) ks incoming k0 (c, j) u = (r, x) ->
  counts_waits snd (counting ac)
  /\ exists r' x', polled n ac ks incoming k0 c u = (r', x')
     /\ match r, r' with inl o, inl o' => o = o' | inr _, inr _ => True | _, _ => False end
     /\ trace_of x' = trace_of x /\ calls x' = calls x /\ events_of x' = events_of x
     /\ st_cfg (w_st x') = fst (st_cfg (w_st x)) /\ st_user (w_st x') = st_user (w_st x) /\ st_mail (w_st x') = st_mail (w_st x).
Proof.
  intros C U K ac ks incoming k0 c u j n r x E. split; [apply counting_counts|].
  destruct (sim2_polls n _ _ (sim2_interact ac ks) _ _ _ E) as (r' & E' & H). exists r', (erase x). split; [exact E'|].
  split; [destruct r, r'; auto|]. now repeat split.
Qed.
Print Assumptions C70_counting.
(** A poll that answers [Pending] does so because a future of the user's did, once;
    or the sink did, and was not asked again; or the incoming stream did, and was
    not asked again.  When the session ends, nobody but the stream answered
    [Pending] in that poll (and the stream only to a mail handler that went on). *)
Theorem C70_pending_for_a_reason : forall C U K (waits : C -> nat) (ac : aconfig C U) (ks : @ksink K) incoming k0 c u n p x r x',
  counts_waits waits ac ->
  polled n ac ks incoming k0 c u = (inr p, x) -> poll_async p x = (r, x') ->
  exists taken called, events_of x = taken ++ events_of x' /\ calls x' = calls x ++ called
  /\ match r with
     | inl Panic => True
     | inl _ => waits (st_cfg (w_st x')) = waits (st_cfg (w_st x)) /\ not_ready called = 0
     | inr _ =>
         (waits (st_cfg (w_st x')) = 1 + waits (st_cfg (w_st x)) /\ not_ready called = 0)
         \/ (waits (st_cfg (w_st x')) = waits (st_cfg (w_st x))
             /\ exists before, not_ready before = 0 /\ (called = before ++ [CReady Pending] \/ called = before ++ [CFlush Pending]))
         \/ (waits (st_cfg (w_st x')) = waits (st_cfg (w_st x)) /\ not_ready called = 0 /\ exists before, taken = before ++ [Pend])
     end.
Proof.
  intros C U K waits ac ks incoming k0 c u n p x r x' Hw E P.
  pose proof (good_polls waits n _ (good_interact ac ks waits Hw) _ _ _ E) as G.
  destruct (good_poll waits p G _ _ _ P) as (taken & called & [S1 S2] & H). exists taken, called. split; [exact S1|]. split; [exact S2|].
  destruct r as [[]|q]; try exact H. exact (proj2 H).
Qed.
Print Assumptions C70_pending_for_a_reason.
(** So it is not polled in vain: it is pending at most as often as one of them was. *)
Theorem C70_waits : forall C U K (waits : C -> nat) (ac : aconfig C U) (ks : @ksink K) incoming k0 c u n p x,
  counts_waits waits ac -> polled n ac ks incoming k0 c u = (inr p, x) ->
  exists taken, src_events incoming = taken ++ events_of x
  /\ n + waits c <= waits (st_cfg (w_st x)) + not_ready (calls x) + count_pend taken.
Proof.
  intros C U K waits ac ks incoming k0 c u n p x Hw E.
  pose proof (good_interact ac ks waits Hw) as G. revert E G.
  change (src_events incoming) with (events_of (world_new incoming (k0, @nil call) c u [])).
  change (waits c) with (waits (st_cfg (w_st (world_new incoming (k0, @nil call) c u [])))).
  assert (H : forall n q (y : @world C U (K * list call)), after_polls n q y = (inr p, x) -> good waits q ->
    exists taken, events_of y = taken ++ events_of x /\ n + waits (st_cfg (w_st y)) + not_ready (calls y) <= waits (st_cfg (w_st x)) + not_ready (calls x) + count_pend taken).
  { clear n. induction n as [|n IH]; intros q y E G; cbn [after_polls] in E.
    - injection E as <- <-. exists []. split; [reflexivity|]. cbn. lia.
    - destruct (poll_async q y) as [[o|q1] x1] eqn:P; [discriminate|]. destruct (good_poll waits q G _ _ _ P) as (t1 & called & [S1 S2] & G1 & R).
      destruct (IH _ _ E G1) as (t2 & E2 & L). exists (t1 ++ t2). split; [now rewrite S1, E2, app_assoc|].
      rewrite S2, not_ready_app in L. unfold count_pend in *. rewrite filter_app, app_length.
      destruct R as [[R1 R2]|[(R1 & bf & R2 & R3)|(R1 & R2 & bf & R3)]].
      + lia.
      + assert (not_ready called = 1) by (destruct R3 as [-> | ->]; rewrite not_ready_app, R2; reflexivity). lia.
      + rewrite R3, filter_app, app_length. cbn [filter length]. lia. }
  intros E G. destruct (H _ _ _ E G) as (t & E1 & L). exists t. split; [exact E1|]. change (not_ready (calls (world_new incoming (k0, @nil call) c u []))) with 0 in L. lia.
Qed.
Print Assumptions C70_waits.
(** If the sink answers in the end, and every future of the user's ends, the session
    ends. *)
Theorem C70_ends : forall C U K (ac : aconfig C U) (ks : @ksink K) incoming k0 c u,
  sink_answers ks -> user_ends ac -> exists n o x, polled n ac ks incoming k0 c u = (inl o, x) /\ o <> NoFuel.
Proof.
  intros C U K ac ks incoming k0 c u Hk Ha. destruct (over_interact ac ks Hk Ha (world_new incoming (k0, []) c u [])) as (n & o & x & E).
  exists n, o, x. split; [exact E|]. intros ->. exact (C70_never_out_of_fuel _ _ _ _ _ _ _ _ _ _ _ E).
Qed.
Print Assumptions C70_ends.

(** ** Case *)
Lemma patient_ends {X} : future_ends (@patient X).
Proof.
  intros [[c u] v]. exists Accept, (c, S (S u), v). apply (ends_wait (@patient X) _ _ 1 (c, S u, v)); [reflexivity|].
  apply (ends_wait (@patient X) _ _ 0 (c, S (S u), v)); [reflexivity|]. now apply (ends_ready (@patient X) _ _ _ 0).
Qed.
Lemma read_on_acts n : forall d text c u, ds_size d < n -> exists data l u' d',
  acts (read_on n text c u) d data [] (Waits l c u') d' /\ (fst l = Ended \/ (fst l = Reading /\ ds_size d' < ds_size d)).
Proof.
  induction n as [|n IH]; intros d text c u H; [lia|]. cbn [read_on]. pose proof (ds_poll_total d) as (P1 & P2 & P3).
  destruct (ds_poll d) as [[[b|]| |] d1] eqn:E; cbn [snd] in *; [| | |destruct P3].
  - destruct (IH d1 (text ++ b) c u ltac:(lia)) as (data & l & u' & d' & H1 & H2). exists (b ++ data), l, u', d'. split; [eapply acts_item; eassumption|].
    destruct H2 as [H2|[H2 H3]]; [now left|right]. split; [exact H2|lia].
  - exists [], (Ended, text), u, d1. split; [eapply acts_end; [exact E|constructor]|now left].
  - exists [], (Reading, text), (S u), d1. split; [eapply acts_pending; [exact E|constructor]|]. right. split; [reflexivity|lia].
Qed.
Lemma collect_ends : forall size d text c u, ds_size d < size -> exists data cs r, handles collect (Reading, text) d c u data cs r.
Proof.
  assert (Hc : forall c u d text, exists data cs r, handles collect (Closed true, text) d c u data cs r).
  { intros c u d text. exists [], [], (Some (Accept, c, u)). eapply handles_return. constructor. }
  assert (He : forall d text c u, exists data cs r, handles collect (Ended, text) d c u data cs r).
  { intros d text c u. destruct (ds_complete d) as [[| |] d1] eqn:E.
    - destruct (Hc (c ++ [text]) u d1 []) as (data & cs & r & H). exists ([] ++ data), ([true] ++ cs), r. eapply handles_wait; [|exact H].
      cbn. eapply acts_complete; [exact E|constructor].
    - eexists [], [false], _. eapply handles_return. cbn. eapply acts_incomplete; [exact E|constructor].
    - exists [], [], None. eapply handles_panic. cbn. eapply acts_panic. exact E. }
  induction size as [|size IH]; intros d text c u H; [lia|].
  destruct (read_on_acts (S (ds_size d)) d text c u ltac:(lia)) as (data & [s t] & u' & d' & H1 & H2). cbn [fst] in H2.
  destruct H2 as [-> |[-> H2]].
  - destruct (He d' t c u') as (data2 & cs & r & H3). exists (data ++ data2), ([] ++ cs), r. eapply handles_wait; [exact H1|exact H3].
  - destruct (IH d' t c u' ltac:(lia)) as (data2 & cs & r & H3). exists (data ++ data2), ([] ++ cs), r. eapply handles_wait; [exact H1|exact H3].
Qed.
Example C70_ends_example : user_ends patient_config /\ sink_answers every_other.
Proof.
  split; [split; try apply patient_ends|].
  - intros c. exists tt, c. now apply (ends_ready (ac_new_mail patient_config) _ _ _ tt).
  - intros m p c u. apply (collect_ends (S (ds_size (ds_new p)))). lia.
  - intros [|]; (split; [|]); try (now eapply answers_now); (eapply answers_later; [reflexivity|now eapply answers_now]).
Qed.
(** The session of [C70_example], counted: after 12 polls, and after 18, one poll
    before its end. *)
Definition counted n :=
  let r := polled n (counting patient_config) slow_sink (src_of async_events) (Slow false 0) ([], 0) 0 in
  (match fst r with inl _ => true | inr _ => false end, snd (st_cfg (w_st (snd r))), not_ready (calls (snd r)), length (events_of (snd r))).
Example C70_waits_example : counted 12 = (false, 6, 3, 3) /\ counted 18 = (false, 9, 5, 0).
Proof. split; vm_compute; reflexivity. Qed.
