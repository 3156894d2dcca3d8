(** What one command line does, and whole sessions. *)
From Verif Require Import Bytes Nom SmtpString Message Reply Stream SpecData DataProofs DataLines StreamProofs
  NomLemmas SpecReply ReplyProofs Interact PropGrammar InteractProofs SpecSession HandlerProofs.

Section Session.
Context {C U W : Type}.
Variable cfg : config C U.
Variable wr : writer W.
Notation state := (@st C U W).

Definition sess_of (s : state) : @sess C U := Sess (st_cfg s) (st_user s) (st_mail s).
Lemma same_sess (s s' : state) : same_session s s' -> sess_of s' = sess_of s /\ st_reader s' = st_reader s.
Proof. intros (H1 & H2 & H3 & H4). unfold sess_of. now rewrite H1, H2, H3. Qed.

Lemma send_reply_says reply (s s' : state) a : send_reply wr reply s = (Ret a, s') ->
  sendable_reply reply -> st_with s = None ->
  same_session s s' /\ st_with s' = None
  /\ exists evs, says reply evs /\ st_trace s' = st_trace s ++ evs.
Proof.
  intros E [Hc Hs] Hw. pose proof (send_reply_ok wr reply s Hw Hs) as P. rewrite E in P. unfold send_post in P.
  destruct P as (P1 & (ws & rest & P2 & P3 & P4) & P5 & _). split; [exact P1|].
  split; [exact (proj1 (P5 a eq_refl))|]. rewrite (P4 a eq_refl), app_nil_r in P2. subst ws.
  exists (map OWrite (reply_items reply)). split; [|exact P3]. exists (reply_items reply).
  split; [now apply reply_items_full|reflexivity].
Qed.
Lemma andthen_ret {A B} (x : outcome A * state) (k : A -> state -> outcome B * state) b s' :
  andthen x k = (Ret b, s') -> exists a s1, x = (Ret a, s1) /\ k a s1 = (Ret b, s').
Proof. destruct x as [[a| | |] s1]; cbn; try discriminate. eauto. Qed.

(** ** A line answered with success *)
Definition moved (p p' : prependable) (text : bytes) (ok : bool) : Prop :=
  (ok = true /\ transfer (unread p) text (unread p')
   /\ src_over (pr_stream p') = src_over (pr_stream p) /\ src_ended (pr_stream p') = src_ended (pr_stream p))
  \/ (ok = false /\ interrupted (unread p) text /\ unread p' = [] /\ pr_prepended p' = None
      /\ src_over (pr_stream p') = src_over (pr_stream p) + (if src_ended (pr_stream p) then 1 else 0)
      /\ src_ended (pr_stream p') = true).
Definition line_done (s : state) (line : bytes) (s' : state) : Prop :=
  st_with s' = None
  /\ ((exists evs, reacts cfg (sess_of s) line evs (sess_of s') /\ st_trace s' = st_trace s ++ evs
        /\ st_reader s' = st_reader s)
      \/ (exists evs1 evs2 c u m text ok, opens cfg (sess_of s) line evs1 c u m
           /\ delivers cfg c u m text ok evs2 (sess_of s') /\ moved (st_reader s) (st_reader s') text ok
           /\ st_trace s' = st_trace s ++ evs1 ++ evs2)).

Hypothesis Hrep : all_replies sendable_reply cfg.
Hypothesis Hdrain : drain_mail cfg.

Lemma yields_replies P : forall (h : handler C U) text ok d c u, handler_replies P h ->
  yields h text ok (d, c, u) -> on_refusal P d.
Proof.
  intros h text ok d c u Hh Y. remember (d, c, u) as r. revert Hh.
  induction Y as [stop f items text ok r Hs Y IH|stop f items ok g d' c' u' E1 E2]; intros Hh.
  - apply IH; [exact Heqr|apply Hh].
  - injection Heqr as -> -> ->. specialize (Hh items true). rewrite E1 in Hh. specialize (Hh ok).
    now rewrite E2 in Hh.
Qed.

Lemma reacts_by reply line pre (s1 s2 s' : state) a : sendable_reply reply -> st_with s1 = None ->
  send_reply wr reply s1 = (Ret a, s') -> st_reader s1 = st_reader s2 ->
  st_trace s1 = st_trace s2 ++ pre ->
  (forall w, says reply w -> reacts cfg (sess_of s2) line (pre ++ w) (sess_of s1)) ->
  line_done s2 line s'.
Proof.
  intros Hs Hw E Hr Ht H. destruct (send_reply_says _ _ _ _ E Hs Hw) as (P1 & P2 & w & P3 & P4).
  apply same_sess in P1. destruct P1 as [P1 P5]. split; [exact P2|]. left. exists (pre ++ w).
  rewrite P1, P4, P5, Ht, <- app_assoc. auto.
Qed.

Lemma handle_line_ret line (s s' : state) a : st_with s = None ->
  handle_line cfg wr line s = (Ret a, s') -> line_done s line s'.
Proof.
  intros Hw H. unfold handle_line in H.
  assert (Hunrec : (forall cmd, command_parse line <> POk cmd) ->
    send_reply wr (cf_command_unrecognized cfg (st_cfg s)) s = (Ret a, s') -> line_done s line s').
  { intros Hn E. eapply (reacts_by _ _ []); [| |exact E| | |]; auto.
    - apply (ar_unrecognized _ _ Hrep).
    - now rewrite app_nil_r.
    - intros w Hs. now apply re_unrecognized. }
  assert (Hother : forall cmd, command_parse line = POk cmd -> other_command cmd ->
    send_reply wr (cf_command_unimplemented cfg (st_cfg s)) s = (Ret a, s') -> line_done s line s').
  { intros cmd Hn Ho E. eapply (reacts_by _ _ []); [| |exact E| | |]; auto.
    - apply (ar_unimplemented _ _ Hrep).
    - now rewrite app_nil_r.
    - intros w Hs. now apply re_unimplemented with cmd. }
  destruct (command_parse line) as [cmd| | | |] eqn:Ep; try (apply Hunrec; [discriminate|exact H]); [|discriminate].
  destruct cmd as [|?|?|?|?|from ps|?| |to ps| |?]; try (apply (Hother _ eq_refl I H)).
  - (* DATA *)
    unfold handle_data_cmd in H. destruct (st_mail s) as [m|] eqn:Em; cbv zeta in H.
    + destruct (mm_to m) as [|t0 ts] eqn:Et.
      * apply andthen_ret in H. destruct H as (a1 & s1 & E & H). injection H as <- <-.
        destruct (send_reply_says _ _ _ _ E (ar_data_before_rcpt _ _ Hrep _) ltac:(exact Hw))
          as (P1 & P2 & w & P3 & P4).
        destruct P1 as (Q1 & Q2 & Q3 & Q4). cbn in Q1, Q2, Q3, Q4, P3, P4.
        split; [exact P2|]. left. exists w. split; [|split; [exact P4|exact Q4]].
        unfold sess_of. rewrite Em. cbn [set_mail st_cfg st_user st_mail]. rewrite Q1, Q2.
        eapply re_data_no_rcpt; eauto.
      * assert (Hne : mm_to m <> []) by (rewrite Et; discriminate).
        cbn [set_mail st_cfg st_user] in H.
        pose proof (ar_filter_data _ _ Hrep (st_cfg s) (st_user s) m) as Hd.
        destruct (cf_filter_data cfg (st_cfg s) (st_user s) m) as [[[d c] u] m'] eqn:Ef.
        cbn [fst] in Hd. destruct d as [|code msg].
        -- apply andthen_ret in H. destruct H as (a1 & s1 & E & H). cbn [log set_cu st_cfg] in E.
           destruct (send_reply_says (cf_data_okay cfg c) _ _ _ E (ar_data_okay _ _ Hrep c) ltac:(exact Hw))
             as (P1 & P2 & w & P3 & P4).
           destruct P1 as (Q1 & Q2 & Q3 & Q4). cbn in Q1, Q2, Q3, Q4, P4.
           unfold receive_mail in H. rewrite Q1, Q2, Q4 in H.
           destruct (run_drains_new _ (st_reader s) (Hdrain c u m')) as (r & text & ok & d' & Er & Y & Hc & Hm).
           rewrite Er in H. destruct r as [[v c'] u'].
           unfold ds_was_completed in H. rewrite Hc in H.
           assert (Hv : on_refusal sendable_reply v).
           { eapply yields_replies; [|exact Y]. apply (ar_handle _ _ Hrep). }
           set (reply := match v with Accept => cf_mail_accepted cfg c' | Reject code msg => (code, msg) end).
           set (s2 := log (set_cu (set_reader s1 (ds_source d')) c' u') (OHandle u m' text [ok] (Some (v, u')))) in *.
           assert (E2 : send_reply wr reply s2 = (Ret a, s')) by (unfold reply; destruct v; exact H).
           assert (Hsr : sendable_reply reply).
           { unfold reply. destruct v; [apply (ar_mail_accepted _ _ Hrep)|exact Hv]. }
           destruct (send_reply_says _ _ _ _ E2 Hsr ltac:(exact P2)) as (R1 & R2 & w2 & R3 & R4).
           apply same_sess in R1. destruct R1 as [R1 R5].
           split; [exact R2|]. right.
           exists ([OFilterData (st_user s) m Accept u m'] ++ w), ([OHandle u m' text [ok] (Some (v, u'))] ++ w2),
             c, u, m', text, ok.
           split. { unfold sess_of. rewrite Em. apply op_data; auto. }
           split. { rewrite R1. unfold sess_of, s2. cbn [log set_cu set_reader st_cfg st_user st_mail].
                    rewrite Q3. apply de with (d := v); auto. }
           split. { rewrite R5. exact Hm. }
           rewrite R4. unfold s2. cbn [log set_cu set_reader st_trace]. rewrite P4, <- !app_assoc. reflexivity.
        -- apply andthen_ret in H. destruct H as (a1 & s1 & E & H). injection H as <- <-.
           destruct (send_reply_says (code, msg) _ _ _ E Hd ltac:(exact Hw)) as (P1 & P2 & w & P3 & P4).
           destruct P1 as (Q1 & Q2 & Q3 & Q4). cbn in Q1, Q2, Q3, Q4, P4.
           split; [exact P2|]. left. exists ([OFilterData (st_user s) m (Reject code msg) u m'] ++ w).
           split; [|split; [cbn [set_mail st_trace]; rewrite P4, <- !app_assoc; reflexivity|exact Q4]].
           unfold sess_of. rewrite Em. cbn [set_mail st_cfg st_user st_mail]. rewrite Q1, Q2.
           eapply re_data_refused; eauto.
    + eapply (reacts_by _ _ []); [| |exact H| | |]; auto.
      * apply (ar_data_before_mail _ _ Hrep).
      * now rewrite app_nil_r.
      * intros w Hs. unfold sess_of. rewrite Em. eapply re_data_first; eauto.
  - (* MAIL *)
    unfold handle_mail_cmd in H. destruct (st_mail s) as [m|] eqn:Em.
    + eapply (reacts_by _ _ []); [| |exact H| | |]; auto.
      * apply (ar_already_in_mail _ _ Hrep).
      * now rewrite app_nil_r.
      * intros w Hs. unfold sess_of. rewrite Em. eapply re_mail_again; eauto.
    + cbv zeta in H. cbn [log set_cfg st_cfg st_user] in H.
      pose proof (ar_from _ _ Hrep (cf_new_mail cfg (st_cfg s)) (st_user s) from) as Hd.
      destruct (cf_filter_from cfg (cf_new_mail cfg (st_cfg s)) (st_user s) from) as [[[d c] u] from'] eqn:Ef.
      cbn [fst] in Hd. destruct d as [|code msg].
      * apply andthen_ret in H. destruct H as (a1 & s1 & E & H). injection H as <- <-.
        cbn [st_cfg set_cu log] in E.
        destruct (send_reply_says (cf_mail_okay cfg c) _ _ _ E (ar_mail_okay _ _ Hrep c) ltac:(exact Hw))
          as (P1 & P2 & w & P3 & P4).
        destruct P1 as (Q1 & Q2 & Q3 & Q4). cbn in Q1, Q2, Q3, Q4, P4.
        split; [exact P2|]. left. exists ([ONewMail; OFrom (st_user s) from Accept u from'] ++ w).
        split.
        { unfold sess_of. rewrite Em. cbn [set_mail st_cfg st_user st_mail]. rewrite Q1, Q2.
          eapply re_mail_accepted; eauto. }
        split; [|exact Q4]. cbn [set_mail st_trace]. rewrite P4, <- !app_assoc. reflexivity.
      * eapply (reacts_by (code, msg) _ [ONewMail; OFrom (st_user s) from (Reject code msg) u from']);
          [exact Hd| |exact H| | |]; auto.
        { cbn. now rewrite <- app_assoc. }
        intros w Hs. unfold sess_of. cbn [log set_cu set_cfg st_cfg st_user st_mail]. rewrite Em.
        eapply re_mail_refused; eauto.
  - (* RCPT *)
    unfold handle_rcpt_cmd in H. destruct (st_mail s) as [m|] eqn:Em.
    + pose proof (ar_to _ _ Hrep (st_cfg s) (st_user s) m to) as Hd.
      destruct (cf_filter_to cfg (st_cfg s) (st_user s) m to) as [[[[d c] u] m'] to'] eqn:Ef.
      cbn [fst] in Hd. cbv zeta in H. destruct d as [|code msg].
      * eapply (reacts_by (cf_rcpt_okay cfg c) _ [OTo (st_user s) m to Accept u m' to']);
          [apply (ar_rcpt_okay _ _ Hrep)| |exact H| | |]; auto.
        intros w Hs. unfold sess_of. cbn [log set_cu set_mail st_cfg st_user st_mail]. rewrite Em.
        eapply re_rcpt_accepted; eauto.
      * eapply (reacts_by (code, msg) _ [OTo (st_user s) m to (Reject code msg) u m' to']);
          [exact Hd| |exact H| | |]; auto.
        intros w Hs. unfold sess_of. cbn [log set_cu set_mail st_cfg st_user st_mail]. rewrite Em.
        eapply re_rcpt_refused; eauto.
    + eapply (reacts_by _ _ []); [| |exact H| | |]; auto.
      * apply (ar_rcpt_before_mail _ _ Hrep).
      * now rewrite app_nil_r.
      * intros w Hs. unfold sess_of. rewrite Em. eapply re_rcpt_first; eauto.
Qed.

(** ** The loop *)
Lemma dialogue_nil (s : @sess C U) evs s' : dialogue cfg s [] evs s' -> evs = [] /\ s' = s.
Proof.
  intros D. remember [] as i eqn:E. destruct D; auto; exfalso; destruct line; discriminate E.
Qed.
Lemma interact_loop_ret : forall fuel (s s' : state) a, st_with s = None ->
  interact_loop cfg wr fuel s = (Ret a, s') ->
  exists evs, st_trace s' = st_trace s ++ evs /\ st_with s' = None
  /\ dialogue cfg (sess_of s) (unread (st_reader s)) evs (sess_of s').
Proof.
  induction fuel as [|fuel IH]; intros s s' a Hw H; [discriminate|]. cbn [interact_loop] in H.
  pose proof (next_crlf_line_ok (st_reader s)) as P. unfold line_post in P. cbn [app] in P.
  destruct (next_crlf_line (st_reader s)) as [[l| | |] p]; try discriminate.
  - destruct P as (x & y & E & Hx & -> & Hy & _). apply andthen_ret in H. destruct H as (a1 & s1 & E1 & H).
    destruct (handle_line_ret _ (set_reader s p) s1 a1 Hw E1) as [Hw1 Hl].
    destruct (IH s1 s' a Hw1 H) as (evs & T & Hw' & D). rewrite E.
    destruct Hl as [(ev & R & T1 & Er)|(ev1 & ev2 & c & u & m & text & ok & O & De & Mv & T1)].
    + exists (ev ++ evs). rewrite T, T1, <- app_assoc. split; [reflexivity|]. split; [exact Hw'|].
      rewrite Er in D. cbn [set_reader st_reader] in D. rewrite Hy in D.
      eapply di_command; eauto.
    + cbn [set_reader st_reader st_trace] in *. rewrite T, T1. destruct Mv as [(-> & Mv & _)|(-> & Mv & Mu & _)].
      * exists (ev1 ++ ev2 ++ evs). split; [now rewrite <- !app_assoc|]. split; [exact Hw'|].
        rewrite Hy in Mv. eapply di_mail; eauto.
      * rewrite Mu in D. apply dialogue_nil in D. destruct D as [-> D].
        exists (ev1 ++ ev2). split; [now rewrite !app_nil_r|]. split; [exact Hw'|].
        rewrite D. rewrite Hy in Mv. eapply di_cut; eauto.
  - destruct P as [Ht ->]. injection H as <- <-. exists []. rewrite app_nil_r. split; [reflexivity|].
    split; [exact Hw|]. now apply di_end.
Qed.

(** [interact] as a dialogue. *)
Lemma interact_ret src w c u (s' : state) a : interact cfg wr src w c u = (Ret a, s') ->
  exists banner evs, st_trace s' = banner ++ evs /\ says (cf_welcome_banner cfg c) banner
  /\ dialogue cfg (Sess c u None) (src_bytes src) evs (sess_of s') /\ st_with s' = None.
Proof.
  unfold interact. intros H. apply andthen_ret in H. destruct H as (a1 & s1 & E & H).
  destruct (send_reply_says _ _ _ _ E (ar_banner _ _ Hrep c) ltac:(reflexivity)) as (P1 & P2 & w1 & P3 & P4).
  destruct (interact_loop_ret _ _ _ _ P2 H) as (evs & T & Hw & D).
  apply same_sess in P1. destruct P1 as [P1 P5]. exists w1, evs. rewrite T, P4. split; [reflexivity|].
  split; [exact P3|]. split; [|exact Hw]. rewrite P1, P5 in D. exact D.
Qed.
End Session.
