(** Property C73: a session that waits for the client has dealt with everything that
    came. *)
From Verif Require Import Bytes Nom SmtpString Ip Message Reply Stream Interact SinkFuture RepoSessions SpecData SpecReply SpecSession SpecExchange
  LawfulProofs PropServer SpecE2E PropE2E SpecPrompt Async AsyncUser SpecAsync SpecUser SpecUserWaits HandlerProofs StreamProofs AsyncReplay PropAsync PropAsyncSink
  AsyncUserProofs AsyncUserWaits TruncProofs AsyncUserIdle PropUser PropUserWaits.
Notation replay := SpecAsync.replay.
Notation polled n ac ks incoming k0 c u := (after_polls n (interact_any ac (any_sink (recording ks))) (world_new incoming (k0, []) c u [])).

(** [x] is where some polls of a session with the incoming events [evs] have come,
    [x'] is where the next one has come: it answered [Pending], and in it no future
    of the user's answered [Pending], nor did the sink (so, by
    C70_pending_for_a_reason, the client is what it waits for). *)
Definition waits_for_client {C U K} (waits : C -> nat) (ac : aconfig C U) (ks : @ksink K) (evs : list event) (k0 : K) (c : C) (u : U)
  (p' : @async C U (K * list call) unit) (x' : @world C U (K * list call)) : Prop :=
  exists n p x, polled n ac ks (src_of evs) k0 c u = (inr p, x) /\ poll_async p x = (inr p', x')
  /\ waits (st_cfg (w_st x')) = waits (st_cfg (w_st x)) /\ not_ready (calls x') = not_ready (calls x).

Section From.
Context {C U K : Type}.
Variable ac : aconfig C U.
Variable ks : @ksink K.
Variable waits : C -> nat.
Variable allowed : answer C U -> Prop.
Notation cfg' := (answering allowed (ac_replies ac)).
Lemma one_more {A} n : forall (p : @async C U (K * list call) A) x q y r z, after_polls n p x = (inr q, y) -> poll_async q y = (r, z) -> after_polls (S n) p x = (r, z).
Proof.
  induction n as [|n IH]; intros p x q y r z E P.
  - cbn in E |- *. injection E as <- <-. rewrite P. now destruct r.
  - cbn [after_polls] in E. destruct (poll_async p x) as [[o|p1] x1] eqn:P1; [discriminate|]. specialize (IH _ _ _ _ _ _ E P).
    change (after_polls (S (S n)) p x) with (match poll_async p x with (inl o, x) => (inl o, x) | (inr p, x) => after_polls (S n) p x end). now rewrite P1.
Qed.
Lemma polled_to evs k0 c u p' (x' : @world C U (K * list call)) : waits_for_client waits ac ks evs k0 c u p' x' -> exists n, polled n ac ks (src_of evs) k0 c u = (inr p', x').
Proof. intros (n & p & x & E & P & _). exists (S n). exact (one_more _ _ _ _ _ _ _ E P). Qed.
Lemma events_taken evs k0 c u p' (x' : @world C U (K * list call)) : counts_waits waits ac -> waits_for_client waits ac ks evs k0 c u p' x' ->
  exists before, evs = (before ++ [Pend]) ++ events_of x'.
Proof.
  intros Hw (n & p & x & E & P & Q1 & Q2). destruct (C70_waits _ _ _ _ _ _ _ _ _ _ _ _ _ Hw E) as (t1 & E1 & _).
  destruct (C70_pending_for_a_reason _ _ _ _ _ _ _ _ _ _ _ _ _ _ _ Hw E P) as (t2 & called & E2 & E3 & [[N _]|[(_ & bf & N1 & N2)|(_ & _ & bf & ->)]]); [lia| |].
  - exfalso. rewrite E3, not_ready_app in Q2. destruct N2 as [-> | ->]; rewrite not_ready_app in Q2; cbn in Q2; lia.
  - exists (t1 ++ bf). cbn [src_events src_of] in E1. rewrite E1, E2, !app_assoc. reflexivity.
Qed.
Lemma from_line evs k0 c u p' (x' : @world C U (K * list call)) : drain_mail cfg' ->
  (forall l, Rw ac allowed (fun _ => True) (a_handle_line (ac_replies ac) (any_sink (recording ks)) (any_user ac) l) (handle_line cfg' replay l)) ->
  counts_waits waits ac -> waits_for_client waits ac ks evs k0 c u p' x' ->
  forall received, evs = received ++ events_of x' ->
  exists answers s, are_answers_of ac c u (inr p') x' (map (@proj1_sig _ _) answers)
  /\ interact cfg' replay (src_of received) (final_answers (calls x')) (c, answers) u = (Ret tt, s)
  /\ st_trace s = trace_of x' /\ st_cfg s = (st_cfg (w_st x'), []) /\ st_user s = st_user (w_st x') /\ st_mail s = st_mail (w_st x').
Proof.
  intros Hd HR Hw (n & p & x & E & P & Q1 & Q2) received Er.
  destruct (interact_waits ac ks waits allowed Hw HR _ _ _ _ _ _ _ _ _ E P (conj Q1 Q2)) as (j & ua & s & H & Ha & H1 & H2 & H3 & H4 & _ & Cl & H5 & T & H6 & H7).
  rewrite Er in H. pose proof (find_sub_spec (front (st_reader s) ++ ev_text T)) as F. rewrite H7 in F.
  destruct (waiting_ends cfg' replay Hd j received (events_of x') _ _ _ s H H5 (ex_intro _ T (conj H6 F))) as (s' & I1 & I2 & I3 & I4 & I5 & _).
  exists ua, s'. split; [exact Ha|]. split; [exact I1|]. split; [congruence|]. split; [congruence|]. split; congruence.
Qed.
End From.
Lemma line_lawful {C U K} P (ac : aconfig C U) (ks : @ksink K) l : lawful P ac ->
  Rw ac (lawful_answer P) (fun _ => True) (a_handle_line (ac_replies ac) (any_sink (recording ks)) (any_user ac) l) (handle_line (answering (lawful_answer P) (ac_replies ac)) replay l).
Proof.
  intros L.
  assert (H : forall X (f : ufuture (C * U * X) decision) mk, future_refuses P f -> (forall d c u g, on_refusal P d -> lawful_answer P (mk d c u g)) ->
    exists J, changes (lawful_answer P) f J mk).
  { intros X f mk Hf Hm. exists (fun _ _ => True). split; [intros; exact I|]. intros v0 l0 c0 u0 v r0 l' c' u' v' _ E. split; [exact I|]. intros d ->.
    exists (fun _ => v'). split; [reflexivity|]. apply Hm, (Hf _ _ _ _ _ E). }
  apply R_handle_line.
  - intros; exact I.
  - apply H; [apply (la_from _ _ L)|auto].
  - apply H; [apply (la_to _ _ L)|auto].
  - apply H; [apply (la_data _ _ L)|auto].
  - intros m. apply (R_handle_drains ac _ (fun _ => on_refusal P) m (la_handle _ _ L m)); [intros; exact I|]. intros v c0 u0 Hv. now split.
Qed.
Lemma line_accepting {C U K} P (ac : aconfig C U) (ks : @ksink K) l : accepting_user P ac ->
  Rw ac (accepting_answer P) (fun _ => True) (a_handle_line (ac_replies ac) (any_sink (recording ks)) (any_user ac) l) (handle_line (answering (accepting_answer P) (ac_replies ac)) replay l).
Proof.
  intros L.
  assert (H : forall X (f : ufuture (C * U * X) decision) mk, future_accepts f -> (forall c u g, (forall v, g v = v) -> accepting_answer P (mk Accept c u g)) ->
    exists J, changes (accepting_answer P) f J mk).
  { intros X f mk Hf Hm. exists (fun v v' => v' = v). split; [reflexivity|]. intros v0 l0 c0 u0 v r0 l' c' u' v' -> E. destruct (Hf _ _ _ _ _ _ _ _ _ E) as [-> Hd].
    split; [reflexivity|]. intros d Er. rewrite (Hd _ Er). exists (fun v => v). split; [reflexivity|]. now apply Hm. }
  apply R_handle_line.
  - intros; exact I.
  - apply H; [apply (au_from _ _ L)|now split].
  - apply H; [apply (au_to _ _ L)|now split].
  - apply H; [apply (au_data _ _ L)|now split].
  - intros m. apply (R_handle_drains ac _ (fun ok d => on_refusal P d /\ (ok = true -> d = Accept)) m (au_handle _ _ L m)); [intros; now split|]. intros v c0 u0 Hv. split; [reflexivity|apply Hv].
Qed.

(** ** C73 *)
(** What there is to see of the session then, its mail and the user's state are those
    of a session of Interact.v on what came alone, at its end.  What came: all events
    up to where the stream had nothing more yet. *)
Theorem C73_as_if_ended : forall C U K (P : N * bytes -> Prop) (waits : C -> nat) (ac : aconfig C U) (ks : @ksink K) evs k0 c u p x,
  lawful P ac -> counts_waits waits ac -> waits_for_client waits ac ks evs k0 c u p x ->
  exists before, evs = (before ++ [Pend]) ++ events_of x
  /\ exists (cfg : config (C * list {a : answer C U | lawful_answer P a}) U) answers s, all_replies P cfg /\ drain_mail cfg
  /\ (forall cl, cf_welcome_banner cfg cl = cf_welcome_banner (ac_replies ac) (fst cl))
  /\ are_answers_of ac c u (inr p) x (map (@proj1_sig _ _) answers)
  /\ interact cfg replay (src_of (before ++ [Pend])) (final_answers (calls x)) (c, answers) u = (Ret tt, s)
  /\ st_trace s = trace_of x /\ st_cfg s = (st_cfg (w_st x), []) /\ st_user s = st_user (w_st x) /\ st_mail s = st_mail (w_st x).
Proof.
  intros C U K P waits ac ks evs k0 c u p x L Hw H. destruct (events_taken _ _ _ _ _ _ _ _ _ Hw H) as (before & Er). exists before. split; [exact Er|].
  assert (Hd : drain_mail (answering (lawful_answer P) (ac_replies ac))) by now apply (answering_drains P).
  destruct (from_line ac ks waits (lawful_answer P) _ _ _ _ _ _ Hd (fun l => line_lawful P ac ks l L) Hw H _ Er) as (answers & s & R).
  exists (answering (lawful_answer P) (ac_replies ac)), answers, s. split; [apply answering_replies, (la_replies _ _ L); auto|]. split; [exact Hd|]. split; [reflexivity|exact R].
Qed.
Print Assumptions C73_as_if_ended.
(** Nothing is kept back then, whatever the user code: all that was to be written was
    handed to the sink, which was flushed since.  (In C70_nothing_kept_back the
    session may wait for the sink.) *)
Theorem C73_nothing_kept_back : forall C U K (waits : C -> nat) (ac : aconfig C U) (ks : @ksink K) evs k0 c u p x,
  counts_waits waits ac -> waits_for_client waits ac ks evs k0 c u p x ->
  sent (calls x) = writes (trace_of x) /\ flushed (calls x) /\ st_with (w_st x) = None.
Proof.
  intros C U K waits ac ks evs k0 c u p x Hw H. destruct (polled_to _ _ _ _ _ _ _ _ _ H) as [n0 E0].
  split; [symmetry; apply (C70_any_user_code _ _ _ _ _ _ _ _ _ _ _ _ E0)|].
  assert (HR : forall l, Rw ac any_answer (fun _ => True) (a_handle_line (ac_replies ac) (any_sink (recording ks)) (any_user ac) l) (handle_line (answering any_answer (ac_replies ac)) replay l)).
  { intros l. assert (F : forall X (f : ufuture (C * U * X) decision) mk, exists J, changes any_answer f J mk).
    { intros X f mk. exists (fun _ _ => True). split; [intros; exact I|]. intros v0 l0 c0 u0 v r0 l' c' u' v' _ _. split; [exact I|]. intros d _. now exists (fun _ => v'). }
    apply R_handle_line; [intros; exact I|apply F..|]. intros m. apply R_handle_any. intros; exact I. }
  destruct H as (n & p0 & x0 & E & P & Q1 & Q2).
  destruct (interact_waits ac ks waits any_answer Hw HR _ _ _ _ _ _ _ _ _ E P (conj Q1 Q2)) as (_ & _ & _ & _ & _ & _ & _ & _ & _ & _ & [Cl1 Cl2] & _).
  split; [now apply dirty_flushed|exact Cl1].
Qed.
Print Assumptions C73_nothing_kept_back.
(** What came is whole commands and messages, each of them answered, and a last line
    that is not complete. *)
Theorem C73_dealt_with_everything : forall C U K (P : N * bytes -> Prop) (waits : C -> nat) (ac : aconfig C U) (ks : @ksink K) evs k0 c u p x,
  lawful (fun r => sendable_reply r /\ P r) ac -> counts_waits waits ac -> waits_for_client waits ac ks evs k0 c u p x ->
  exists before, evs = (before ++ [Pend]) ++ events_of x
  /\ exists banner exch xs tail, trace_of x = map OWrite banner ++ exch
  /\ full_reply (fst (cf_welcome_banner (ac_replies ac) c)) (snd (cf_welcome_banner (ac_replies ac) c)) banner
  /\ partition (concat (map ev_bytes before)) exch xs tail /\ Forall (replies_ok P) xs /\ Forall content_ok xs.
Proof.
  intros C U K P waits ac ks evs k0 c u p x L Hw H.
  destruct (C73_as_if_ended _ _ _ _ _ _ _ _ _ _ _ _ _ L Hw H) as (before & Er & cfg & answers & s & H1 & H2 & Hb & _ & Ei & Et & _).
  exists before. split; [exact Er|].
  destruct (C33_one_reply_per_command _ _ _ _ _ P _ _ _ _ _ (all_replies_impl cfg _ _ (fun r H => proj1 H) H1) (all_replies_impl cfg _ _ (fun r H => proj2 H) H1) H2 Ei)
    as (banner & exch & xs & tail & T1 & T2 & T3). rewrite Hb in T2. cbn [fst] in T2. exists banner, exch, xs, tail. split; [now rewrite <- Et|]. split; [exact T2|].
  unfold src_bytes in T3. cbn [src_events src_of] in T3. rewrite map_app, concat_app in T3. cbn in T3. rewrite app_nil_r in T3. exact T3.
Qed.
Print Assumptions C73_dealt_with_everything.
(** With user code that accepts everything: once what a client sends has come, to the
    last byte, and the session waits for more, every message is delivered and every
    command answered. *)
Theorem C73_delivered : forall C U K (waits : C -> nat) (ac : aconfig C U) (ks : @ksink K) jobs wires before k0 c u p x,
  accepting_user (fun r => sendable_reply r /\ printable_reply r) ac -> counts_waits waits ac ->
  Forall2 client_sends jobs wires -> carries before (concat wires) ->
  waits_for_client waits ac ks (before ++ Pend :: events_of x) k0 c u p x ->
  delivered jobs (mails_given (trace_of x))
  /\ are_replies (cf_welcome_banner (ac_replies ac) :: flat_map (replies_to (ac_replies ac)) jobs) (sent (calls x))
  /\ flushed (calls x).
Proof.
  intros C U K waits ac ks jobs wires before k0 c u p x L Hw Hj Hc H.
  destruct (C73_nothing_kept_back _ _ _ _ _ _ _ _ _ _ _ _ Hw H) as (Hs & Hf & _). rewrite Hs.
  set (good := fun r => sendable_reply r /\ printable_reply r) in *. set (cfg := answering (accepting_answer good) (ac_replies ac)).
  assert (HA := answering_accepts good (ac_replies ac)).
  assert (HD : drain_mail cfg) by apply (answering_drains good), accepting_is_lawful.
  assert (HR : all_replies good cfg) by (apply answering_replies; [apply accepting_is_lawful|apply (au_replies _ _ L)]).
  assert (Er : before ++ Pend :: events_of x = (before ++ [Pend]) ++ events_of x) by now rewrite <- app_assoc.
  destruct (from_line ac ks waits (accepting_answer good) _ _ _ _ _ _ HD (fun l => line_accepting good ac ks l L) Hw H _ Er) as (answers & s & _ & E1 & Et & _).
  fold cfg in E1. assert (G : reliable good_writer) by now repeat split.
  destruct (interact cfg good_writer (src_of (before ++ [Pend])) tt (c, answers) u) as [o2 s2] eqn:E2.
  pose proof (C37_otherwise_same _ _ _ _ cfg replay good_writer _ _ _ _ _ _ _ _ _ G E1 ltac:(discriminate) E2) as Es.
  assert (Hc' : carries (before ++ [Pend]) (concat wires)). { unfold carries, src_bytes in *. cbn in *. rewrite map_app, concat_app. cbn. rewrite app_nil_r. exact Hc. }
  destruct (C40_delivery _ _ _ _ good_writer _ _ _ tt (c, answers) u _ _ HA HD HR G Hj Hc' E2) as (_ & D1 & D2 & _).
  assert (T : st_trace s2 = trace_of x) by (rewrite <- Et; apply Es). rewrite T in D1, D2. split; [exact D1|]. split; [|exact Hf]. eapply replies_of_answering, D2.
Qed.
Print Assumptions C73_delivered.

(** ** Case *)
(** Counting keeps the rules. *)
Lemma counting_safe {C U} (ac : aconfig C U) : user_safe ac -> user_safe (counting ac).
Proof.
  intros [H1 H2 H3 H4 H5].
  assert (F : forall X (f : ufuture (C * U * X) decision), future_safe f -> future_safe (count_filter f)).
  { intros X f H l [[[c n] u] v]. cbn. specialize (H l (c, u, v)). destruct (uf_poll f l (c, u, v)) as [[r l'] [[c' u'] v']]. exact H. }
  split; [|now apply F..|].
  - intros l [c n]. cbn. specialize (H1 l c). destruct (uf_poll (ac_new_mail ac) l c) as [[r l'] c']. exact H1.
  - intros m l [c n] u size. cbn. specialize (H5 m l c u size). induction (hf_poll (ac_handle_mail ac m) l c u size) as [k IH|k IH|l1 c1 u1|d c1 u1|]; cbn in *; auto.
Qed.
Lemma counting_order {C U} Q (f : hfuture C U) : drains_future Q f -> drains_future Q (count_handler f).
Proof.
  intros (at_ & H1 & H2). exists at_. split; [exact H1|]. intros l [c n] u size. cbn. specialize (H2 l c u size). revert H2. generalize (at_ l).
  induction (hf_poll f l c u size) as [k IH|k IH|l1 c1 u1|d c1 u1|]; cbn; intros now H; auto.
  - destruct H as (A1 & A2 & A3 & A4). split; [exact A1|]. split; [apply IH, A2|]. split; [intros b; apply IH, A3|apply IH, A4].
  - destruct H as (A1 & A2). split; [exact A1|]. intros ok. apply IH, A2.
Qed.
Lemma counting_accepting {C U} P (ac : aconfig C U) : accepting_user P ac -> accepting_user P (counting ac).
Proof.
  intros [H1 H2 H3 H4 H5 H6].
  assert (F : forall X (f : ufuture (C * U * X) decision), future_accepts f -> future_accepts (count_filter f)).
  { intros X f H l [c n] u v r l' [c' n'] u' v'. cbn. destruct (uf_poll f l (c, u, v)) as [[r1 l1] [[c1 u1] v1]] eqn:E. intros [= <- <- <- <- <- <-]. exact (H _ _ _ _ _ _ _ _ _ E). }
  split; [now apply counting_safe| |now apply F..|].
  - intros c. exact (H2 (fst c)).
  - intros m. apply counting_order, H6.
Qed.
Lemma counting_lawful {C U} P (ac : aconfig C U) : lawful P ac -> lawful P (counting ac).
Proof.
  intros [H1 H2 H3 H4 H5 H6].
  assert (F : forall X (f : ufuture (C * U * X) decision), future_refuses P f -> future_refuses P (count_filter f)).
  { intros X f H l [[[c n] u] v] l' s' d. cbn. destruct (uf_poll f l (c, u, v)) as [[r1 l1] [[c1 u1] v1]] eqn:E. intros Es. injection Es as -> _ _. exact (H _ _ _ _ _ E). }
  split; [now apply counting_safe| |now apply F..|].
  - intros c. exact (H2 (fst c)).
  - intros m. apply counting_order, H6.
Qed.
(** The client of C40 sends its two messages byte by byte, and later something else;
    the user code suspends itself in each call, the sink is not ready every other
    time: the session waits for the client with the two messages stored. *)
Definition idle_events (b : bytes) : list event := flat_map (fun b => [Pend; Chunk [b]]) b ++ Pend :: [Chunk (s2b "NOOP" ++ CRLF)].
Definition idle_session (b : bytes) n := polled n (counting patient_config) every_other (src_of (idle_events b)) false ([], 0) 0.
Lemma idle_case {C U K} (waits : C -> nat) (ac : aconfig C U) (ks : @ksink K) evs k0 c u n :
  (match fst (polled (S n) ac ks (src_of evs) k0 c u) with inr _ => true | inl _ => false end = true) ->
  waits (st_cfg (w_st (snd (polled (S n) ac ks (src_of evs) k0 c u)))) = waits (st_cfg (w_st (snd (polled n ac ks (src_of evs) k0 c u)))) ->
  not_ready (calls (snd (polled (S n) ac ks (src_of evs) k0 c u))) = not_ready (calls (snd (polled n ac ks (src_of evs) k0 c u))) ->
  exists p, waits_for_client waits ac ks evs k0 c u p (snd (polled (S n) ac ks (src_of evs) k0 c u)).
Proof.
  assert (H : forall n (p : @async C U (K * list call) unit) x, after_polls (S n) p x =
    match after_polls n p x with (inl o, x1) => (inl o, x1) | (inr q, x1) => poll_async q x1 end).
  { clear n. induction n as [|n IH]; intros p x.
    - cbn. now destruct (poll_async p x) as [[o|q] x1].
    - change (after_polls (S (S n)) p x) with (match poll_async p x with (inl o, x) => (inl o, x) | (inr p, x) => after_polls (S n) p x end).
      cbn [after_polls]. destruct (poll_async p x) as [[o|q] x1]; [reflexivity|]. apply IH. }
  rewrite H. destruct (polled n ac ks (src_of evs) k0 c u) as [[o|q] x1] eqn:E; [discriminate|]. destruct (poll_async q x1) as [[o|p] x2] eqn:P; [discriminate|].
  intros _ E1 E2. exists p, n, q, x1. split; [exact E|]. split; [exact P|]. now split.
Qed.
Example C73_example : exists wires p, let x := snd (idle_session (concat wires) 190) in
  accepting_user (fun r => sendable_reply r /\ printable_reply r) (counting patient_config)
  /\ counts_waits snd (counting patient_config)
  /\ Forall2 client_sends two_jobs wires /\ carries (flat_map (fun b => [Pend; Chunk [b]]) (concat wires)) (concat wires)
  /\ events_of x = [Chunk (s2b "NOOP" ++ CRLF)]
  /\ waits_for_client snd (counting patient_config) every_other (idle_events (concat wires)) false ([], 0) 0 p x
  /\ fst (st_cfg (w_st x)) = [s2b "hello" ++ CRLF ++ [DOT] ++ CRLF; []].
Proof.
  destruct two_wires as (wires & F & E). exists wires.
  destruct (idle_case snd (counting patient_config) every_other (idle_events (concat wires)) false ([], 0) 0 189) as [p H].
  1-3: rewrite E; vm_compute; reflexivity.
  exists p. split; [apply counting_accepting, C70_accepting_example|]. split; [apply counting_counts|]. split; [exact F|].
  split; [unfold carries; rewrite E; vm_compute; reflexivity|]. split; [rewrite E; vm_compute; reflexivity|]. split; [exact H|]. rewrite E; vm_compute; reflexivity.
Qed.
Example C73_lawful_example : lawful (fun r => sendable_reply r /\ printable_reply r) (counting patient_config).
Proof. apply counting_lawful, C70_lawful_example. Qed.
