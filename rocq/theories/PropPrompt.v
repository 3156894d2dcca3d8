(** Properties C52 and C53: answers are not delayed. *)
From Verif Require Import Bytes Nom SmtpString Message Reply Stream SpecData DataProofs DataLines StreamProofs
  NomLemmas SpecReply Interact RepoSessions InteractProofs SpecSession HandlerProofs LawfulProofs TraceProofs PropServer
  SpecPrompt PromptProofs.

(** ** C52: what arrives later is not needed *)
(** A line is returned as soon as its CRLF is there: nothing behind it is polled. *)
Theorem C52_line_at_once : forall p l p' more,
  next_crlf_line p = (Line l, p') -> next_crlf_line (later p more) = (Line l, later p' more).
Proof. intros p l p' more H. now apply line_later. Qed.
Print Assumptions C52_line_at_once.
Example C52_line_example :
  next_crlf_line (prep_new (src_of [Chunk (s2b "NO"); Pend; Chunk (s2b "OP" ++ CRLF ++ s2b "QU"); Pend; Chunk (s2b "IT")]))
  = (Line (s2b "NOOP" ++ CRLF), Prep (src_of [Pend; Chunk (s2b "IT")]) (Some (s2b "QU"))).
Proof. vm_compute. reflexivity. Qed.

(** A message that is complete is completed without waiting for what follows. *)
Theorem C52_message_at_once : forall p items d' more, still_open p ->
  ds_session (ds_new p) = (Some items, CompleteOk, d') ->
  ds_session (ds_new (later p more)) = (Some items, CompleteOk, later_ds d' more).
Proof.
  intros p items d' more Ho H. apply session_later; [exact H|].
  revert H. unfold ds_session, ds_read_all.
  destruct (ds_read_loop (S (ds_size (ds_new p))) (ds_new p)) as [x d1] eqn:E.
  destruct (ds_complete d1) as [r d2] eqn:Ec. intros H. injection H as -> -> ->.
  destruct (ds_new_active p) as [Ha Hs].
  pose proof (ds_read_loop_ok (S (ds_size (ds_new p))) (ds_new p) Ha Hs ltac:(lia)) as P. rewrite E in P.
  destruct (complete_later [] _ _ _ Ec) as [-> _]. unfold closed.
  apply ds_complete_Ok_finished in Ec. unfold still_open in Ho.
  destruct P as (_ & _ & P). revert P. unfold ended, over. cbn [ds_new ds_source]. rewrite Ho. intuition congruence.
Qed.
Print Assumptions C52_message_at_once.
(** A poll of a message stream that does not see the end of the connection does
    not depend on what comes after what it has taken. *)
Theorem C52_poll_at_once : forall d r d' more, ds_poll d = (r, d') -> still_open (ds_source d') ->
  ds_poll (later_ds d more) = (r, later_ds d' more).
Proof. intros d r d' more H Ho. now apply (proj2 (poll_later more d r d' H)). Qed.
Print Assumptions C52_poll_at_once.
Example C52_message_example :
  let p := prep_new (src_of [Chunk (s2b "hi" ++ CRLF ++ s2b "."); Pend; Chunk (CRLF ++ s2b "NOOP")]) in
  exists d', ds_session (ds_new p) = (Some [s2b "hi" ++ CRLF], CompleteOk, d') /\ still_open p
  /\ unread (ds_source d') = s2b "NOOP".
Proof. eexists. split; [vm_compute; reflexivity|]. split; vm_compute; reflexivity. Qed.

(** In a session: the state in which the server starts to wait for its next
    line does not depend on what arrives from then on. *)
Theorem C52_session_at_once : forall C U W (cfg : config C U) (wr : writer W) n src w c u s more,
  waits_after cfg wr n src w c u s -> still_open (st_reader s) ->
  waits_after cfg wr n (later_src src more) w c u (later_st s more).
Proof.
  intros C U W cfg wr n src w c u s more H Ho. unfold waits_after in *.
  set (s0 := St c u None (prep_new src) w None []) in *.
  change (St c u None (prep_new (later_src src more)) w None []) with (later_st s0 more).
  rewrite reply_later. destruct (send_reply wr (cf_welcome_banner cfg c) s0) as [[[]| | |] s1]; try discriminate.
  cbn [andthen lift fst snd] in *. now apply after_lines_later.
Qed.
Print Assumptions C52_session_at_once.
(** [waits_after] is a point of the run of [interact]. *)
Theorem C52_waits_is_interact : forall C U W (cfg : config C U) (wr : writer W) n src w c u s,
  waits_after cfg wr n src w c u s ->
  exists fuel, interact cfg wr src w c u = interact_loop cfg wr fuel s /\ fst (interact_loop cfg wr fuel s) <> NoFuel.
Proof.
  intros C U W cfg wr n src w c u s H.
  assert (G : exists fuel, interact cfg wr src w c u = interact_loop cfg wr fuel s).
  { pose proof (C35_sessions_end C U W cfg wr src w c u) as F. unfold waits_after, interact in *.
    destruct (send_reply wr (cf_welcome_banner cfg c) (St c u None (prep_new src) w None [])) as [[[]| | |] s1];
      try discriminate.
    cbn [andthen] in *. set (f := S (prep_size (st_reader s1))) in *.
    destruct (Nat.lt_ge_cases f n) as [L|L].
    - exfalso. apply F. eapply loop_no_fuel; eauto.
    - exists (f - n). now apply loop_after_lines. }
  destruct G as [f G]. exists f. split; [exact G|]. rewrite <- G. apply C35_sessions_end.
Qed.
Print Assumptions C52_waits_is_interact.

(** Whatever the client does after it has sent [evs]: if these are whole
    commands and whole messages (a session on [evs] alone ends without an
    interrupted message), possibly followed by a part of a line, the server
    answers all of them, exactly as if the connection had ended there, before it
    waits for anything else. *)
Theorem C52_answered_before_waiting : forall C U W (cfg : config C U) (wr : writer W) evs more w c u s',
  stops_at_end_mail cfg ->
  interact cfg wr (src_of evs) w c u = (Ret tt, s') ->
  (forall u1 m text v, ~ In (OHandle u1 m text [false] v) (st_trace s')) ->
  exists n s tail,
    waits_after cfg wr n (src_of (evs ++ more)) w c u s
    /\ st_trace s = st_trace s' /\ st_w s = st_w s' /\ st_mail s = st_mail s'
    /\ still_open (st_reader s)
    /\ unread (st_reader s) = tail ++ concat (map ev_bytes more) /\ is_line tail
    /\ exists rest, src_events (pr_stream (st_reader s)) = rest ++ more.
Proof.
  intros C U W cfg wr evs more w c u s' Hd H Hcut. unfold interact in H.
  destruct (send_reply wr (cf_welcome_banner cfg c) (St c u None (prep_new (src_of evs)) w None [])) as [[[]| | |] s1] eqn:E;
    try discriminate. cbn [andthen] in H.
  destruct (loop_ret_lines _ _ _ _ _ H) as (n & s2 & p & A & B & ->).
  destruct (send_reply_weak _ _ _ _ _ E) as ((_ & _ & _ & S4) & _). cbn [st_reader] in S4.
  assert (Ho : still_open (st_reader s2)).
  { unfold still_open. destruct (src_ended (pr_stream (st_reader s2))) eqn:Es; [exfalso|reflexivity].
    destruct (after_lines_open cfg wr Hd _ _ _ A) as [_ X].
    assert (X' : Exists cut_handle (st_trace s2)). { apply X; [unfold shut; now rewrite S4|exact Es]. }
    apply Exists_exists in X'. destruct X' as (o & Hin & u1 & m & text & v & ->). exact (Hcut _ _ _ _ Hin). }
  exists n, (later_st s2 more), (unread (st_reader s2)).
  pose proof (next_crlf_line_ok (st_reader s2)) as P. rewrite B in P. cbn [app] in P. destruct P as [P _].
  split; [|repeat split; auto].
  - change (src_of (evs ++ more)) with (later_src (src_of evs) more).
    apply C52_session_at_once; [|exact Ho]. unfold waits_after. rewrite E. exact A.
  - unfold unread, src_bytes. cbn. now rewrite map_app, concat_app, app_assoc.
  - eexists. reflexivity.
Qed.
Print Assumptions C52_answered_before_waiting.

(** When the server waits for a line every reply has been handed to the writer
    and the writer has been flushed after it. *)
Theorem C52_flushed_before_waiting : forall C U W (cfg : config C U) (wr : writer W) n src w c u s,
  waits_after cfg (track wr) n src (w, false) c u s -> all_flushed s.
Proof.
  intros C U W cfg wr n src w c u s H. unfold waits_after in H.
  destruct (send_reply (track wr) (cf_welcome_banner cfg c) (St c u None (prep_new src) (w, false) None [])) as [[[]| | |] s1] eqn:E;
    try discriminate. cbn [andthen] in H. eapply after_lines_flushed; [|exact H]. eapply reply_flushed; exact E.
Qed.
Print Assumptions C52_flushed_before_waiting.
(** The same holds when the mail handler runs, seen from a handler that fails:
    with replies that can be sent, only the handler can stop the session by a
    panic, and it then leaves everything flushed, the go-ahead included. *)
Theorem C52_flushed_before_the_handler : forall C U W (cfg : config C U) (wr : writer W) src w c u s,
  all_replies good_reply cfg ->
  interact cfg (track wr) src (w, false) c u = (Panic, s) -> all_flushed s.
Proof.
  intros C U W cfg wr src w c u s Hr H. unfold interact in H.
  destruct (send_reply (track wr) (cf_welcome_banner cfg c) (St c u None (prep_new src) (w, false) None [])) as [[[]| | |] s1] eqn:E;
    try discriminate; cbn [andthen] in H.
  - eapply loop_panic_flushed; [exact Hr| |exact H]. eapply reply_flushed; exact E.
  - exfalso. eapply reply_panic; [apply (ar_banner _ _ Hr)| |exact E]. reflexivity.
Qed.
Print Assumptions C52_flushed_before_the_handler.

(** A case: a pipelined greeting, a whole mail and half a command. *)
Definition prompt_events : list event :=
  [Chunk (ln "MAIL FROM:<>" ++ ln "RCPT TO:<a@b.cd>"); Pend; Chunk (ln "DATA" ++ ln "hello");
   Chunk (s2b "." ++ CRLF ++ s2b "NO"); Pend].
Definition prompt_replies : nat := 5.
Example C52_session_example :
  let r := interact test_config (track test_writer) (src_of prompt_events) (tt, false) [] tt in
  exists s', r = (Ret tt, s')
  /\ length (filter (fun o => match o with OWrite _ => true | _ => false end) (st_trace s')) = prompt_replies
  /\ (forall u1 m text v, ~ In (OHandle u1 m text [false] v) (st_trace s')).
Proof.
  eexists. split; [vm_compute; reflexivity|]. split; [vm_compute; reflexivity|].
  intros u1 m text v H. cbn [st_trace In] in H.
  repeat match type of H with _ \/ _ => destruct H as [H|H]; [discriminate H|] end. exact H.
Qed.
Example C52_waits_example : exists n s,
  waits_after test_config (track test_writer) n (src_of (prompt_events ++ [Chunk (s2b "OP" ++ CRLF)])) (tt, false) [] tt s
  /\ st_trace s = st_trace (snd (interact test_config (track test_writer) (src_of prompt_events) (tt, false) [] tt))
  /\ unread (st_reader s) = s2b "NOOP" ++ CRLF /\ n = 3.
Proof. exists 3. eexists. split; [vm_compute; reflexivity|]. repeat split; vm_compute; reflexivity. Qed.
(** A handler that calls [complete] at once makes the session panic. *)
Example C52_handler_example :
  let bad := default_config (fun c u f => (Accept, c, u, f)) (fun c u m t => (Accept, c, u, m, t))
               (fun c u m => HComplete (fun _ => HDone Accept c u)) (fun _ : unit => s2b "h") in
  all_replies good_reply bad
  /\ fst (interact bad (track test_writer) (src_of prompt_events) (tt, false) tt tt) = Panic.
Proof.
  split; [|vm_compute; reflexivity].
  assert (Hg : forall r, (fst r <? 1000)%N && (N.of_nat (length (snd r)) + 506 <=? 18446744073709551616)%N
    && forallb (fun c => (c =? 9)%N || ((32 <=? c)%N && (c <=? 126)%N)) (snd r) = true -> good_reply r).
  { intros r H. rewrite !andb_true_iff, N.ltb_lt, N.leb_le in H. destruct H as [[H1 H2] H3].
    split; [split; assumption|]. rewrite forallb_forall in H3. apply Forall_forall. intros x Hx. apply H3 in Hx.
    unfold printable. rewrite orb_true_iff, andb_true_iff, N.eqb_eq, !N.leb_le in Hx. exact Hx. }
  constructor; intros; try exact I; try (intros ok; exact I); apply Hg; vm_compute; reflexivity.
Qed.

(** ** C53: a message stream that waits holds nothing back *)
(** When a poll answers [Pending], the reader of the message has been given all
    the text of the bytes received so far, except a last line that may still
    become the end of the message; nothing past that was taken. *)
Theorem C53_nothing_held_back : forall p out d,
  polled p out (Some DPending) d ->
  exists received, unread p = received ++ unread (ds_source d) /\ interrupted received out.
Proof.
  intros p out d H. destruct (pending_interrupted _ _ _ H) as (rd & R1 & R2).
  exists rd. split; [exact R1|]. now apply dec_interrupted.
Qed.
Print Assumptions C53_nothing_held_back.
Example C53_example : exists d,
  polled (prep_new (src_of [Chunk (s2b "a" ++ CRLF ++ s2b "."); Pend; Chunk (s2b ".b")])) (s2b "a" ++ CRLF) (Some DPending) d
  /\ unread (ds_source d) = s2b ".b" /\ interrupted (s2b "a" ++ CRLF ++ s2b ".") (s2b "a" ++ CRLF).
Proof.
  set (p := prep_new _). exists (snd (ds_poll (snd (ds_poll (ds_new p))))). split; [|split].
  - rewrite <- (app_nil_r (s2b "a" ++ CRLF)) at 1.
    apply (polled_step p (s2b "a" ++ CRLF) (Some (DReady (Some (s2b "a" ++ CRLF)))) (snd (ds_poll (ds_new p))) DPending);
      [|discriminate|vm_compute; reflexivity].
    apply (polled_step p [] None (ds_new p) (DReady (Some (s2b "a" ++ CRLF)))); [constructor|discriminate|vm_compute; reflexivity].
  - vm_compute. reflexivity.
  - apply dec_interrupted. vm_compute. reflexivity.
Qed.
(** The text of the last line of which only a part has come is given too. *)
Theorem C53_unfinished_line : forall p out d ls t, polled p out (Some DPending) d ->
  Forall is_line ls -> Forall (fun l => l <> end_line) ls -> is_line t -> ~ undecided t ->
  unread p = (unlines ls ++ t) ++ unread (ds_source d) ->
  out = unlines (map dot_unstuff ls) ++ dot_unstuff t.
Proof.
  intros p out d ls t H H1 H2 H3 H4 E. destruct (C53_nothing_held_back _ _ _ H) as (rd & R1 & R2).
  rewrite E in R1. apply app_inv_tail in R1. subst rd. apply dec_interrupted in R2.
  assert (I : interrupted (unlines ls ++ t) (unlines (map dot_unstuff ls) ++ dot_unstuff t)).
  { exists ls, t. repeat split; auto. }
  apply dec_interrupted in I. congruence.
Qed.
Print Assumptions C53_unfinished_line.
