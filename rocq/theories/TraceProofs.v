(** What can happen in any session, whatever the configuration and the writer do. *)
From Verif Require Import Bytes Nom SmtpString Message Reply Stream SpecData DataProofs DataLines StreamProofs
  NomLemmas SpecReply ReplyProofs Interact PropGrammar InteractProofs SpecSession HandlerProofs.

Section Trace.
Context {C U W : Type}.
Variable cfg : config C U.
Variable wr : writer W.
Notation state := (@st C U W).

(** The observations made while one line is handled, starting with the
    transaction [tx] and ending with [tx']. *)
Inductive line_events (tx : option mail_meta) : list (obs U) -> outcome unit -> option mail_meta -> Prop :=
| le_writes ws o tx' : (o = Ret tt -> tx' = tx) -> line_events tx (map OWrite ws) o tx'
| le_from c u f d c' u' f' ws o tx' :
    tx = None -> cf_filter_from cfg c u f = (d, c', u', f') ->
    (o = Ret tt -> tx' = match d with Accept => Some (Meta f' []) | Reject _ _ => None end) ->
    line_events tx ([ONewMail; OFrom u f d u' f'] ++ map OWrite ws) o tx'
| le_to c u m t d c' u' m' t' ws o tx' :
    tx = Some m -> cf_filter_to cfg c u m t = (d, c', u', m', t') ->
    (o = Ret tt -> tx' = match d with Accept => Some (Meta (mm_from m') (mm_to m' ++ [t']))
                         | Reject _ _ => Some m' end) ->
    line_events tx ([OTo u m t d u' m' t'] ++ map OWrite ws) o tx'
| le_data_refused c u m code msg c' u' m' ws o tx' :
    tx = Some m -> mm_to m <> [] -> cf_filter_data cfg c u m = (Reject code msg, c', u', m') ->
    (o = Ret tt -> tx' = Some m') ->
    line_events tx ([OFilterData u m (Reject code msg) u' m'] ++ map OWrite ws) o tx'
| le_data_cut c u m c' u' m' ws o tx' :
    tx = Some m -> mm_to m <> [] -> cf_filter_data cfg c u m = (Accept, c', u', m') -> o <> Ret tt ->
    line_events tx ([OFilterData u m Accept u' m'] ++ map OWrite ws) o tx'
| le_mail c u m c' u' m' ws data cs v ws' o tx' :
    tx = Some m -> mm_to m <> [] -> cf_filter_data cfg c u m = (Accept, c', u', m') ->
    (o = Ret tt -> tx' = None) -> (cs = [] \/ v = None -> o = Panic /\ ws' = []) ->
    line_events tx ([OFilterData u m Accept u' m'] ++ map OWrite ws
                    ++ [OHandle u' m' data cs v] ++ map OWrite ws') o tx'.

Definition line_post (s : state) (r : outcome unit * state) : Prop :=
  let '(o, s') := r in
  o <> NoFuel /\ length (unread (st_reader s')) <= length (unread (st_reader s))
  /\ exists evs, st_trace s' = st_trace s ++ evs /\ line_events (st_mail s) evs o (st_mail s').

Lemma weak_writes reply (s : state) : line_post s (send_reply wr reply s).
Proof.
  destruct (send_reply wr reply s) as [o s'] eqn:E.
  destruct (send_reply_weak _ _ _ _ _ E) as ((S1 & S2 & S3 & S4) & (ws & T) & _ & Hf).
  split; [exact Hf|]. rewrite S4. split; [lia|]. exists (map OWrite ws). split; [exact T|].
  apply le_writes. intros _. exact S3.
Qed.
(** A reply sent after the callbacks [pre]. *)
Lemma weak_after reply pre (s s1 : state) : st_trace s1 = st_trace s ++ pre -> st_reader s1 = st_reader s ->
  (forall ws o, line_events (st_mail s) (pre ++ map OWrite ws) o (st_mail s1)) ->
  line_post s (send_reply wr reply s1).
Proof.
  intros Ht Hr H. destruct (send_reply wr reply s1) as [o s'] eqn:E.
  destruct (send_reply_weak _ _ _ _ _ E) as ((S1 & S2 & S3 & S4) & (ws & T) & _ & Hf).
  split; [exact Hf|]. rewrite S4, Hr. split; [lia|]. exists (pre ++ map OWrite ws).
  rewrite T, Ht, <- app_assoc. split; [reflexivity|]. rewrite S3. apply H.
Qed.
Lemma weak_then reply pre (s s1 : state) tx1 : st_trace s1 = st_trace s ++ pre -> st_reader s1 = st_reader s ->
  (forall ws o tx', (o = Ret tt -> tx' = tx1) -> line_events (st_mail s) (pre ++ map OWrite ws) o tx') ->
  line_post s (andthen (send_reply wr reply s1) (fun _ s' => (Ret tt, set_mail s' tx1))).
Proof.
  intros Ht Hr H. destruct (send_reply wr reply s1) as [o s'] eqn:E.
  destruct (send_reply_weak _ _ _ _ _ E) as ((S1 & S2 & S3 & S4) & (ws & T) & _ & Hf).
  destruct o as [a| | |]; cbn [andthen].
  - split; [discriminate|]. cbn [set_mail st_reader st_trace st_mail]. rewrite S4, Hr. split; [lia|].
    exists (pre ++ map OWrite ws). rewrite T, Ht, <- app_assoc. split; [reflexivity|]. apply H. auto.
  - split; [discriminate|]. rewrite S4, Hr. split; [lia|].
    exists (pre ++ map OWrite ws). rewrite T, Ht, <- app_assoc. split; [reflexivity|]. apply H. discriminate.
  - split; [discriminate|]. rewrite S4, Hr. split; [lia|].
    exists (pre ++ map OWrite ws). rewrite T, Ht, <- app_assoc. split; [reflexivity|]. apply H. discriminate.
  - congruence.
Qed.

Lemma handle_line_weak line (s : state) : line_post s (handle_line cfg wr line s).
Proof.
  unfold handle_line.
  destruct (command_parse line) as [cmd| | | |] eqn:Ep; try apply weak_writes.
  2:{ exfalso. exact (C14_always_terminates line Ep). }
  destruct cmd as [|?|?|?|?|from ps|?| |to ps| |?]; try apply weak_writes.
  - (* DATA *)
    unfold handle_data_cmd. destruct (st_mail s) as [m|] eqn:Em; cbv zeta; [|apply weak_writes].
    destruct (mm_to m) as [|t0 ts] eqn:Et.
    + apply (weak_then _ []); [now rewrite app_nil_r|reflexivity|].
      intros ws o tx' Ho. rewrite Em. now apply le_writes.
    + assert (Hne : mm_to m <> []) by (rewrite Et; discriminate). cbn [set_mail st_cfg st_user].
      destruct (cf_filter_data cfg (st_cfg s) (st_user s) m) as [[[d c] u] m'] eqn:Ef.
      destruct d as [|code msg].
      * set (s1 := log _ _).
        destruct (send_reply wr (cf_data_okay cfg (st_cfg s1)) s1) as [o s2] eqn:E.
        destruct (send_reply_weak _ _ _ _ _ E) as ((S1 & S2 & S3 & S4) & (ws & T) & _ & Hf).
        cbn [s1 log set_cu set_mail st_cfg st_user st_mail st_reader st_trace] in S1, S2, S3, S4, T.
        assert (Hcut : o <> Ret tt -> line_post s (o, s2)).
        { intros Ho. split; [exact Hf|]. rewrite S4. split; [lia|].
          exists ([OFilterData (st_user s) m Accept u m'] ++ map OWrite ws). rewrite T, <- app_assoc.
          split; [reflexivity|]. rewrite Em. eapply le_data_cut; eauto. }
        destruct o as [[]| | |]; cbn [andthen]; try (apply Hcut; discriminate).
        unfold receive_mail. rewrite S1, S2, S4.
        destruct (run_handler (cf_handle_mail cfg c u m') (ds_new (st_reader s)) [] []) as [[[r data] cs] d'] eqn:Er.
        destruct (run_handler_total _ _ _ _ _ _ _ _ Er) as (H1 & H2 & H3 & _ & H5).
        assert (Hl : length (unread (ds_source d')) <= length (unread (st_reader s))).
        { unfold tb in H1. cbn [ds_new ds_buf ds_source length] in H1. lia. }
        specialize (fun Hc => H5 Hc ltac:(discriminate)).
        assert (Hend : forall v ws' o' (s3 : state), o' <> NoFuel ->
          st_trace s3 = (st_trace s2 ++ [OHandle u m' data cs v]) ++ map OWrite ws' ->
          st_reader s3 = ds_source d' -> (o' = Ret tt -> st_mail s3 = None) ->
          (cs = [] \/ v = None -> o' = Panic /\ ws' = []) -> line_post s (o', s3)).
        { intros v ws' o' s3 Hnf Ht Hrd Hm Hc. split; [exact Hnf|]. rewrite Hrd. split; [exact Hl|].
          exists ([OFilterData (st_user s) m Accept u m'] ++ map OWrite ws
                  ++ [OHandle u m' data cs v] ++ map OWrite ws').
          rewrite Ht, T. split; [now rewrite <- !app_assoc|]. rewrite Em. eapply le_mail; eauto. }
        destruct r as [[[v c'] u']| | |]; try congruence.
        -- set (s3 := log _ _).
           assert (Hsend : forall reply, cs <> [] -> line_post s (send_reply wr reply s3)).
           { intros reply Hcs. destruct (send_reply wr reply s3) as [o' s4] eqn:E4.
             destruct (send_reply_weak _ _ _ _ _ E4) as ((R1 & R2 & R3 & R4) & (ws' & T') & _ & Hf').
             cbn [s3 log set_cu set_reader st_mail st_reader st_trace] in R3, R4, T'.
             apply (Hend (Some (v, u')) ws'); auto.
             - intros _. rewrite R3. exact S3.
             - intros [Hc|Hc]; [contradiction|discriminate]. }
           destruct (ds_was_completed d') eqn:Ed.
           ++ assert (Hcs : cs <> []).
              { intros Hc. apply (H5 Hc). unfold ds_was_completed in Ed. destruct (ds_st d'); congruence. }
              destruct v; now apply Hsend.
           ++ apply (Hend (Some (v, u')) []); auto; try discriminate. now rewrite app_nil_r.
        -- apply (Hend None []); auto; try discriminate. now rewrite app_nil_r.
      * apply (weak_then _ [OFilterData (st_user s) m (Reject code msg) u m']); [reflexivity|reflexivity|].
        intros ws o tx' Ho. rewrite Em. eapply le_data_refused; eauto.
  - (* MAIL *)
    unfold handle_mail_cmd. destruct (st_mail s) as [m|] eqn:Em; cbv zeta; [apply weak_writes|].
    cbn [log set_cfg st_cfg st_user].
    destruct (cf_filter_from cfg (cf_new_mail cfg (st_cfg s)) (st_user s) from) as [[[d c] u] from'] eqn:Ef.
    destruct d as [|code msg].
    + apply (weak_then _ [ONewMail; OFrom (st_user s) from Accept u from']); [cbn; now rewrite <- app_assoc|reflexivity|].
      intros ws o tx' Ho. rewrite Em. eapply le_from; eauto.
    + apply (weak_after _ [ONewMail; OFrom (st_user s) from (Reject code msg) u from']);
        [cbn; now rewrite <- app_assoc|reflexivity|].
      intros ws o. cbn [log set_cu set_cfg st_mail]. rewrite Em. eapply le_from; eauto.
  - (* RCPT *)
    unfold handle_rcpt_cmd. destruct (st_mail s) as [m|] eqn:Em; cbv zeta; [|apply weak_writes].
    destruct (cf_filter_to cfg (st_cfg s) (st_user s) m to) as [[[[d c] u] m'] to'] eqn:Ef.
    destruct d as [|code msg].
    + apply (weak_after _ [OTo (st_user s) m to Accept u m' to']); [reflexivity|reflexivity|].
      intros ws o. cbn [log set_cu set_mail st_mail]. rewrite Em. eapply le_to; eauto.
    + apply (weak_after _ [OTo (st_user s) m to (Reject code msg) u m' to']); [reflexivity|reflexivity|].
      intros ws o. cbn [log set_cu set_mail st_mail]. rewrite Em. eapply le_to; eauto.
Qed.

(** The observations of the whole loop. *)
Inductive run_events : option mail_meta -> list (obs U) -> outcome unit -> Prop :=
| ru_end tx : run_events tx [] (Ret tt)
| ru_stop tx evs o tx' : line_events tx evs o tx' -> o <> Ret tt -> run_events tx evs o
| ru_line tx evs tx1 evs' o : line_events tx evs (Ret tt) tx1 -> run_events tx1 evs' o ->
    run_events tx (evs ++ evs') o.

Lemma interact_loop_weak : forall fuel (s s' : state) o, length (unread (st_reader s)) < fuel ->
  interact_loop cfg wr fuel s = (o, s') ->
  o <> NoFuel /\ exists evs, st_trace s' = st_trace s ++ evs /\ run_events (st_mail s) evs o.
Proof.
  induction fuel as [|fuel IH]; intros s s' o Hf H; [lia|]. cbn [interact_loop] in H.
  pose proof (next_crlf_line_ok (st_reader s)) as P. unfold StreamProofs.line_post in P. cbn [app] in P.
  destruct (next_crlf_line (st_reader s)) as [[l| | |] p]; try tauto.
  - destruct P as (x & y & E & _ & -> & Hy & _).
    assert (Hl : length (unread p) < fuel).
    { rewrite E, !app_length in Hf. cbn in Hf. rewrite Hy. lia. }
    pose proof (handle_line_weak (x ++ CRLF) (set_reader s p)) as Q. unfold line_post in Q.
    destruct (handle_line cfg wr (x ++ CRLF) (set_reader s p)) as [o1 s1].
    cbn [set_reader st_reader st_trace st_mail] in Q. destruct Q as (Q1 & Q2 & evs & Q3 & Q4).
    assert (Hstop : o1 <> Ret tt -> (o1, s1) = (o, s') ->
      o <> NoFuel /\ exists evs, st_trace s' = st_trace s ++ evs /\ run_events (st_mail s) evs o).
    { intros Ho E1. injection E1 as <- <-. split; [exact Q1|]. exists evs. split; [exact Q3|].
      eapply ru_stop; eauto. }
    destruct o1 as [[]| | |]; cbn [andthen] in H; try (apply Hstop; [discriminate|congruence]).
    destruct (IH s1 s' o ltac:(lia) H) as (I1 & evs' & I2 & I3). split; [exact I1|].
    exists (evs ++ evs'). rewrite I2, Q3, app_assoc. split; [reflexivity|]. eapply ru_line; eauto.
  - injection H as <- <-. split; [discriminate|]. exists []. rewrite app_nil_r. split; [reflexivity|]. constructor.
Qed.
Lemma unread_size p : length (unread p) <= prep_size p.
Proof.
  unfold unread, prep_size, src_size, src_bytes. rewrite app_length.
  assert (H : forall evs, length (concat (map ev_bytes evs)) <= fold_right (fun e n => ev_size e + n) 0 evs).
  { induction evs as [|[|b] evs IH]; cbn; rewrite ?app_length; lia. }
  specialize (H (src_events (pr_stream p))). destruct (pr_prepended p); cbn [length]; lia.
Qed.
(** A whole session: the banner, then the loop. *)
Lemma interact_weak src w c u (s' : state) o : interact cfg wr src w c u = (o, s') ->
  o <> NoFuel /\ exists ws evs, st_trace s' = map OWrite ws ++ evs /\ run_events None evs o.
Proof.
  unfold interact. intros H. set (s0 := St _ _ _ _ _ _ _) in H.
  destruct (send_reply wr (cf_welcome_banner cfg c) s0) as [o1 s1] eqn:E.
  destruct (send_reply_weak _ _ _ _ _ E) as ((S1 & S2 & S3 & S4) & (ws & T) & _ & Hf).
  assert (Hstop : o1 <> Ret tt -> (o1, s1) = (o, s') ->
    o <> NoFuel /\ exists ws evs, st_trace s' = map OWrite ws ++ evs /\ run_events None evs o).
  { intros Ho E1. injection E1 as <- <-. split; [exact Hf|]. exists ws, []. rewrite app_nil_r.
    split; [exact T|]. apply (ru_stop _ [] _ None); [|exact Ho]. apply (le_writes _ []). congruence. }
  destruct o1 as [[]| | |]; cbn [andthen] in H; try (apply Hstop; [discriminate|congruence]).
  apply interact_loop_weak in H; [|pose proof (unread_size (st_reader s1)); lia].
  destruct H as (H1 & evs & H2 & H3). split; [exact H1|]. exists ws, evs. rewrite H2, T.
  split; [reflexivity|]. rewrite S3 in H3. exact H3.
Qed.
End Trace.
