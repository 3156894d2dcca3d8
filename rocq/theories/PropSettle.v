(** Property C79: a client that waits for every reply is never left waiting. *)
From Verif Require Import Bytes Nom SmtpString Message Reply Stream SpecData DataProofs DataLines SinkProofs StreamProofs
  PropData SpecGrammar CommandProofs RoundTrip SpecReply ReplyProofs Interact RepoSessions PropGrammar InteractProofs SpecSession
  SpecExchange HandlerProofs SessionProofs TraceProofs ExchangeProofs LawfulProofs SimProofs PropServer SpecE2E PropE2E SpecRelay PropRelay
  SpecPrompt PromptProofs PropPrompt SpecAgree PropAgree SpecSettle.

(** ** The specification *)
Lemma packets_app net : forall a past b, packets net past (a ++ b) = packets net past a ++ packets net (past ++ a) b.
Proof.
  induction a as [|x a IH]; intros past b; cbn [packets app]; [now rewrite app_nil_r|].
  rewrite IH, <- !app_assoc. reflexivity.
Qed.
Lemma packets_carry net : faithful net -> forall sends past, carries (packets net past sends) (concat sends).
Proof.
  intros Hn. induction sends as [|b sends IH]; intros past; [reflexivity|]. unfold carries in *. cbn [packets concat].
  now rewrite map_app, concat_app, (Hn past b), IH.
Qed.
Lemma replies_app o1 o2 c1 c2 : replies_are o1 c1 -> replies_are o2 c2 -> replies_are (o1 ++ o2) (c1 ++ c2).
Proof.
  intros (b1 & -> & F1) (b2 & -> & F2). exists (b1 ++ b2). split; [now rewrite concat_app|now apply Forall2_app].
Qed.
Lemma says_replies {U} (calls w : list (obs U)) reply : out_of calls = [] -> says reply w -> snd reply <> [] ->
  Forall SpecReply.printable (snd reply) -> replies_are (out_of (calls ++ w)) [fst reply].
Proof.
  intros Ec (ws & Hf & ->) Hn Hp. rewrite out_app, Ec, out_writes. cbn [app].
  destruct (full_reply_is _ _ _ Hf Hn Hp) as (ts & Ht & Hl & Hr).
  exists [concat ws]. split; [cbn; now rewrite app_nil_r|]. constructor; [|constructor]. exists ts, ws. auto.
Qed.
Lemma transfer_not_interrupted wire text rest text' : transfer wire text rest -> interrupted wire text' -> False.
Proof. intros T I. apply dec_transfer in T. apply dec_interrupted in I. congruence. Qed.

Section Settle.
Context {C U W : Type}.
Variable cfg : config C U.
Variable wr : writer W.
Variable w0 : W.
Variable c0 : C.
Variable u0 : U.
Variable net : network.
Variable cl : client.
Hypothesis RN : rewrites_nothing cfg.
Hypothesis HN : honest cfg.
Hypothesis DM : drain_mail cfg.
Hypothesis AP : all_replies (fun r => sendable_reply r /\ printable_reply r) cfg.
Hypothesis RW : reliable wr.
Hypothesis FN : faithful net.
Notation state := (@st C U W).
Notation run evs := (interact cfg wr (src_of evs) w0 c0 u0).
Notation sess := (@sess C U).
Let g := fst (cf_welcome_banner cfg c0).
Lemma SR : all_replies sendable_reply cfg.
Proof. exact (all_replies_impl cfg _ _ (fun r H => proj1 H) AP). Qed.

(** The server waits for a line; it has answered all that was sent. *)
Definition idle (past : list bytes) (codes : list N) (got : list a_mail) (s : state) : Prop :=
  (exists n, waits_after cfg wr n (src_of (packets net [] past)) w0 c0 u0 s)
  /\ st_with s = None /\ unread (st_reader s) = [] /\ still_open (st_reader s) /\ tx_good (sess_of s)
  /\ replies_are (out_of (st_trace s)) (g :: codes) /\ accepted_mails (st_trace s) = got.

Lemma after_lines_snoc : forall n (s s1 s2 : state) l p, after_lines cfg wr n s = (Ret tt, s1) ->
  next_crlf_line (st_reader s1) = (Line l, p) -> handle_line cfg wr l (set_reader s1 p) = (Ret tt, s2) ->
  after_lines cfg wr (n + 1) s = (Ret tt, s2).
Proof.
  induction n as [|n IH]; intros s s1 s2 l p A E H; cbn [after_lines Nat.add] in *.
  - injection A as ->. rewrite E, H. reflexivity.
  - destruct (next_crlf_line (st_reader s)) as [[l0| | |] p0]; try discriminate.
    destruct (handle_line cfg wr l0 (set_reader s p0)) as [[[]| | |] s0]; try discriminate. cbn [andthen] in *.
    eapply IH; eauto.
Qed.
Lemma waits_extends n evs s : waits_after cfg wr n (src_of evs) w0 c0 u0 s -> st_with s = None ->
  exists s' more, run evs = (Ret tt, s') /\ st_trace s' = st_trace s ++ more
  /\ dialogue cfg (sess_of s) (unread (st_reader s)) more (sess_of s').
Proof.
  intros Wt Hw. destruct (C52_waits_is_interact _ _ _ _ _ _ _ _ _ _ _ Wt) as (fuel & E & _).
  destruct (run evs) as [o s'] eqn:R. pose proof (C35_success _ _ _ _ _ _ _ _ _ _ _ AP DM RW R) as ->.
  symmetry in E. destruct (interact_loop_ret cfg wr SR DM fuel s s' tt Hw E) as (more & T & _ & D).
  exists s', more. auto.
Qed.
Lemma idle_line past codes got s line wire evs : idle past codes got s -> is_line line ->
  carries evs (line ++ CRLF ++ wire) ->
  exists s2 s1 n, line_done cfg s2 (line ++ CRLF) s1 /\ sess_of s2 = sess_of s /\ st_trace s2 = st_trace s
  /\ unread (st_reader s2) = wire /\ still_open (st_reader s2)
  /\ waits_after cfg wr n (src_of (packets net [] past ++ evs)) w0 c0 u0 s1.
Proof.
  intros ((n & Wt) & Hw & Hu & Ho & _) Hl Hc.
  pose proof (C52_session_at_once _ _ _ _ _ _ _ _ _ _ _ evs Wt Ho) as Wt2.
  change (later_src (src_of (packets net [] past)) evs) with (src_of (packets net [] past ++ evs)) in Wt2.
  assert (Eu : unread (st_reader (later_st s evs)) = line ++ CRLF ++ wire).
  { transitivity (unread (st_reader s) ++ concat (map ev_bytes evs)); [|now rewrite Hu].
    unfold unread, src_bytes. cbn. now rewrite map_app, concat_app, app_assoc. }
  pose proof (C52_waits_is_interact _ _ _ _ _ _ _ _ _ _ _ Wt2) as (fuel & E & _).
  destruct (run (packets net [] past ++ evs)) as [o s'] eqn:R.
  pose proof (C35_success _ _ _ _ _ _ _ _ _ _ _ AP DM RW R) as ->. symmetry in E.
  pose proof (next_crlf_line_ok (st_reader (later_st s evs))) as P. unfold line_post in P. cbn [app] in P.
  destruct fuel as [|fuel]; [discriminate|]. cbn [interact_loop] in E.
  destruct (next_crlf_line (st_reader (later_st s evs))) as [[l| | |] p] eqn:En; try contradiction.
  2:{ exfalso. destruct P as [P _]. rewrite Eu in P. apply P. exists line, wire. reflexivity. }
  destruct P as (a & b & E1 & Ha & -> & Hb & He & _). rewrite Eu in E1. apply first_crlf_unique in E1; auto. destruct E1 as [<- <-].
  apply andthen_ret in E. destruct E as ([] & s1 & E1 & E).
  exists (set_reader (later_st s evs) p), s1, (n + 1).
  split; [|split; [reflexivity|split; [reflexivity|split; [exact Hb|split]]]].
  - eapply handle_line_ret; eauto using SR.
  - unfold still_open in *. cbn [set_reader st_reader]. rewrite He. exact Ho.
  - clear Wt R. unfold waits_after in *. destruct (send_reply wr (cf_welcome_banner cfg c0) _) as [[[]| | |] s3]; try discriminate.
    cbn [andthen] in *. eapply after_lines_snoc; eauto.
Qed.

(** After the turns of [past], with the replies [codes], whatever follows. *)
Definition answered (past : list bytes) (codes : list N) : Prop :=
  forall more, exists s' tr rest, run (packets net [] past ++ more) = (Ret tt, s')
  /\ st_trace s' = tr ++ rest /\ replies_are (out_of tr) (g :: codes).
Lemma idle_answered past codes got s : idle past codes got s -> answered past codes.
Proof.
  intros ((n & Wt) & Hw & Hu & Ho & _ & Rp & _) more.
  pose proof (C52_session_at_once _ _ _ _ _ _ _ _ _ _ _ more Wt Ho) as Wt2.
  change (later_src (src_of (packets net [] past)) more) with (src_of (packets net [] past ++ more)) in Wt2.
  destruct (waits_extends _ _ _ Wt2 Hw) as (s' & rest & R & T & _). exists s', (st_trace s), rest. auto.
Qed.
Lemma idle_ends past codes got s : idle past codes got s ->
  exists s', run (packets net [] past) = (Ret tt, s') /\ replies_are (out_of (st_trace s')) (g :: codes)
  /\ accepted_mails (st_trace s') = got.
Proof.
  intros ((n & Wt) & Hw & Hu & Ho & _ & Rp & Ac).
  destruct (waits_extends _ _ _ Wt Hw) as (s' & rest & R & T & D). rewrite Hu in D. apply dialogue_nil in D.
  destruct D as [-> _]. rewrite app_nil_r in T. exists s'. rewrite T. auto.
Qed.
Lemma packets_snoc past b : packets net [] (past ++ [b]) = packets net [] past ++ net past b.
Proof. rewrite packets_app. cbn [packets app]. now rewrite app_nil_r. Qed.

(** A command that does not open a transfer. *)
Lemma plain_turn past codes got s cmd : idle past codes got s -> wf_command cmd ->
  (forall line evs c u m, command_send cmd = line ++ CRLF -> ~ opens cfg (sess_of s) (line ++ CRLF) evs c u m) ->
  exists s1 evs, dialogue cfg (sess_of s) (command_send cmd ++ []) evs (sess_of s1)
  /\ (exists line, command_send cmd = line ++ CRLF /\ reacts cfg (sess_of s) (line ++ CRLF) evs (sess_of s1))
  /\ (forall reply calls w, evs = calls ++ w -> out_of calls = [] -> accepted_mails (calls ++ w) = [] -> says reply w -> good_text reply ->
        idle (past ++ [command_send cmd]) (codes ++ [fst reply]) got s1).
Proof.
  intros I Wf No. destruct (C18_wf_command_one_line _ Wf) as (line & Hl & E).
  assert (Ca : carries (net past (command_send cmd)) (line ++ CRLF ++ [])).
  { unfold carries. rewrite (FN past (command_send cmd)), E, app_nil_r. reflexivity. }
  destruct (idle_line _ _ _ _ _ _ _ I Hl Ca) as (s2 & s1 & n & (Hw1 & L) & Es & Et & Hu & Ho & Wt).
  destruct L as [(evs & R & T & Er)|(e1 & e2 & c & u & m & text & ok & O & _)].
  2:{ exfalso. rewrite Es in O. exact (No _ _ _ _ _ E O). }
  rewrite Es in R. rewrite Et in T. exists s1, evs. split.
  { rewrite E, <- app_assoc. rewrite <- (app_nil_r evs). eapply di_command; [exact Hl|exact R|]. apply di_end. apply is_line_nil. }
  split; [eauto|]. intros reply calls w -> Oc Ac Sy [G1 G2]. destruct I as (_ & _ & _ & _ & Tg & Rp & Ag).
  split; [exists n; now rewrite packets_snoc|]. split; [exact Hw1|]. split; [now rewrite Er|]. split; [now rewrite Er|].
  split; [eapply reacts_good; eauto|]. rewrite T, out_app, accepted_app, Ac, app_nil_r. split; [|exact Ag].
  change (g :: codes ++ [fst reply]) with ((g :: codes) ++ [fst reply]). apply replies_app; [exact Rp|]. now apply says_replies.
Qed.
Lemma sess_mail (s : state) c u m : sess_of s = Sess c u m -> st_mail s = m.
Proof. now intros [=]. Qed.
Lemma parses_not_data cmd line : wf_command cmd -> cmd <> Data -> command_send cmd = line ++ CRLF ->
  command_parse (line ++ CRLF) <> POk Data.
Proof.
  intros Wf Hn E P. destruct (C15_round_trip _ Wf) as (cmd' & P2 & Q). rewrite E in P2. assert (cmd' = Data) as -> by congruence.
  inversion Q; subst; congruence.
Qed.

Lemma sender_turn past codes got s f : idle past codes got s -> st_mail s = None -> wf_command (says_mail cl f) ->
  exists code s1, idle (past ++ [command_send (says_mail cl f)]) (codes ++ [code]) got s1
  /\ (positive code /\ st_mail s1 = Some (Meta f []) \/ (~ positive code /\ ~ accepting cfg) /\ st_mail s1 = None).
Proof.
  unfold says_mail. intros I Hm Wf.
  destruct (plain_turn _ _ _ _ (Mail f (cl_mail cl f)) I Wf) as (s1 & evs & D & (l1 & El1 & R1) & Nx).
  { intros line evs c u m E O. apply opens_data in O. eapply parses_not_data; eauto. discriminate. }
  unfold sess_of at 1 in D. rewrite Hm in D. pose proof D as D0. apply (step_sender cfg RN HN AP) in D; [|exact Wf].
  destruct D as (calls & w & tr & c' & u' & Ev & Oc & Ac & [[Sy D]|(reply & [Hr1 Hr2] & Sy & D)]);
    apply dialogue_nil in D; destruct D as [-> D]; rewrite app_nil_r in Ev; apply sess_mail in D.
  - exists (fst (cf_mail_okay cfg c')), s1. split; [eapply Nx; eauto; apply (ar_mail_okay _ _ (all_good cfg HN AP))|].
    left. split; [apply HN|exact D].
  - exists (fst reply), s1. split; [eapply Nx; eauto|]. right. split; [|exact D].
    split; [unfold positive, negative in *; lia|]. intros A. apply (step_mail cfg A) in D0; [|exact Wf].
    destruct D0 as (c2 & u2 & w2 & tr2 & _ & _ & D0). apply dialogue_nil in D0. destruct D0 as [_ D0]. apply sess_mail in D0. congruence.
Qed.
Lemma recipient_turn past codes got s m t : idle past codes got s -> st_mail s = Some m -> wf_command (says_rcpt cl t) ->
  exists code s1, idle (past ++ [command_send (says_rcpt cl t)]) (codes ++ [code]) got s1
  /\ (positive code /\ st_mail s1 = Some (Meta (mm_from m) (mm_to m ++ [t])) \/ (~ positive code /\ ~ accepting cfg) /\ st_mail s1 = Some m).
Proof.
  unfold says_rcpt. intros I Hm Wf.
  destruct (plain_turn _ _ _ _ (Rcpt t (cl_rcpt cl t)) I Wf) as (s1 & evs & D & (l1 & El1 & R1) & Nx).
  { intros line evs c u m' E O. apply opens_data in O. eapply parses_not_data; eauto. discriminate. }
  pose proof I as (_ & _ & _ & _ & Tg & _).
  unfold sess_of at 1 in D. unfold sess_of in Tg. rewrite Hm in D, Tg. pose proof D as D0. apply (step_recipient cfg RN HN AP) in D; [|exact Wf|exact Tg].
  destruct D as (calls & w & tr & c' & u' & Ev & Oc & Ac & [[Sy D]|(reply & [Hr1 Hr2] & Sy & D)]);
    apply dialogue_nil in D; destruct D as [-> D]; rewrite app_nil_r in Ev; apply sess_mail in D.
  - exists (fst (cf_rcpt_okay cfg c')), s1. split; [eapply Nx; eauto; apply (ar_rcpt_okay _ _ (all_good cfg HN AP))|].
    left. split; [apply HN|exact D].
  - exists (fst reply), s1. split; [eapply Nx; eauto|]. right. split; [|exact D].
    split; [unfold positive, negative in *; lia|]. intros A. apply (step_rcpt cfg A) in D0; [|exact Wf].
    destruct D0 as (c2 & u2 & w2 & tr2 & _ & _ & D0). apply dialogue_nil in D0. destruct D0 as [_ D0]. apply sess_mail in D0.
    rewrite D in D0. injection D0 as D0. apply (f_equal (fun m => length (mm_to m))) in D0. cbn [mm_to] in D0. rewrite app_length in D0. cbn in D0. lia.
Qed.
Ltac not_plain := match goal with
  | P : command_parse ?l = POk Data, X : command_parse ?l = POk ?c, O : other_command ?c |- _ =>
      exfalso; assert (c = Data) by congruence; subst c; destruct O
  | P : command_parse ?l = POk Data, X : forall _, command_parse ?l <> POk _ |- _ => exfalso; exact (X _ P)
  end.
Lemma text_turns past codes got s f taken text : idle past codes got s -> st_mail s = Some (Meta f taken) -> taken <> [] ->
  sent_as text (cl_text cl text) ->
  (exists code s1, (~ go_on code /\ ~ accepting cfg) /\ idle (past ++ [command_send Data]) (codes ++ [code]) got s1)
  \/ (exists code verdict s1 out, go_on code /\ answered (past ++ [command_send Data]) (codes ++ [code])
      /\ normalised text out /\ st_mail s1 = None
      /\ (positive verdict /\ idle (past ++ [command_send Data; cl_text cl text]) (codes ++ [code; verdict]) (got ++ [(f, taken, out)]) s1
          \/ (~ positive verdict /\ ~ accepting cfg) /\ idle (past ++ [command_send Data; cl_text cl text]) (codes ++ [code; verdict]) got s1)).
Proof.
  intros I Hm Hn Hs. assert (Wf : wf_command Data) by exact Logic.I.
  pose proof I as (_ & _ & _ & _ & Tg & Rp & Ag). unfold sess_of in Tg. rewrite Hm in Tg.
  destruct (C18_wf_command_one_line _ Wf) as (line & Hl & E).
  assert (P : command_parse (line ++ CRLF) = POk Data).
  { destruct (C15_round_trip _ Wf) as (cmd' & P & Q). rewrite <- E, P. f_equal. inversion Q; auto. }
  destruct (cf_filter_data cfg (st_cfg s) (st_user s) (Meta f taken)) as [[[d c1] u1] m1] eqn:F.
  pose proof (rn_data _ RN (st_cfg s) (st_user s) (Meta f taken)) as Em. rewrite F in Em. cbn [snd] in Em. subst m1.
  destruct d as [|dc dm].
  - right. set (enc := cl_text cl text) in *.
    destruct (sent_transfer _ _ [] Hs) as (out & Nm & Tr). rewrite app_nil_r in Tr.
    assert (Dt : forall evs wire, carries evs (line ++ CRLF ++ wire) ->
      exists (s2 s1 : state) n c u m txt ok e1 e2 w, sess_of s2 = sess_of s /\ st_with s1 = None
        /\ e1 = [OFilterData (st_user s) (Meta f taken) Accept u1 (Meta f taken)] ++ w /\ says (cf_data_okay cfg c1) w
        /\ (c, u, m) = (c1, u1, Meta f taken)
        /\ delivers cfg c u m txt ok e2 (sess_of s1) /\ moved (st_reader s2) (st_reader s1) txt ok
        /\ st_trace s1 = st_trace s ++ e1 ++ e2 /\ unread (st_reader s2) = wire /\ still_open (st_reader s2)
        /\ waits_after cfg wr n (src_of (packets net [] past ++ evs)) w0 c0 u0 s1).
    { intros evs wire Ca. destruct (idle_line _ _ _ _ _ _ _ I Hl Ca) as (s2 & s1 & n & (Hw1 & L) & Es & Et & Hu & Ho & Wt).
      destruct L as [(e & R & _)|(e1 & e2 & c & u & m & txt & ok & O & Dl & Mv & T)].
      - exfalso. rewrite Es in R. unfold sess_of in R. rewrite Hm in R.
        inversion R; subst; cbn [mm_to] in *; try congruence; not_plain.
      - rewrite Es in O. unfold sess_of in O. rewrite Hm in O. rewrite Et in T.
        inversion O; subst. match goal with X : cf_filter_data _ _ _ _ = _ |- _ => rewrite F in X; injection X; intros; subst end.
        exists s2, s1, n. do 8 eexists. repeat split; eauto. }
    assert (Go : replies_are (out_of (U := U) []) []) by (exists []; split; [reflexivity|constructor]).
    pose proof (all_good cfg HN AP) as AG.
    assert (RD : forall w, says (cf_data_okay cfg c1) w -> forall ob, out_of [ob] = [] ->
      replies_are (out_of (st_trace s ++ [ob] ++ w)) (g :: codes ++ [fst (cf_data_okay cfg c1)])).
    { intros w Sy ob Hob. rewrite out_app. change (g :: codes ++ [fst (cf_data_okay cfg c1)]) with ((g :: codes) ++ [fst (cf_data_okay cfg c1)]).
      apply replies_app; [exact Rp|]. apply says_replies; auto; apply (ar_data_okay _ _ AG c1). }
    destruct (Dt (net past (command_send Data) ++ net (past ++ [command_send Data]) (enc)) (enc))
      as (s2 & s1 & n & c & u & m & txt & ok & e1 & e2 & w & Es & Hw1 & -> & Sy & Eq & Dl & Mv & T & Hu & Ho & Wt).
    { unfold carries. rewrite map_app, concat_app, (FN past (command_send Data)), (FN (past ++ [command_send Data]) (enc)), E.
      now rewrite <- app_assoc. }
    injection Eq as -> -> ->. destruct Mv as [(-> & Mv & _ & He)|(_ & Mv & _)].
    2:{ exfalso. rewrite Hu in Mv. eapply transfer_not_interrupted; eauto. }
    rewrite Hu in Mv. destruct (C01_transfer_unique _ _ _ _ _ Tr Mv) as [<- Eu].
    pose proof (delivers_good _ _ _ _ _ _ _ _ Dl) as [Dn _].
    remember (sess_of s1) as ss1 eqn:Ess.
    inversion Dl as [c2 u2 m2 t2 k d c' u' w2 Y Sy2 J1 J2 J3 J4 J5 J6 J7]; subst c2 u2 m2 t2 k e2.
    assert (Gd : let reply := match d with Accept => cf_mail_accepted cfg c' | Reject code msg => (code, msg) end in
       good_text reply /\ match d with Accept => positive (fst reply) | Reject _ _ => negative (fst reply) end).
    { destruct d as [|dc dm]; [split; [exact (ar_mail_accepted _ _ AG c')|apply HN]|].
      split; [exact (yields_replies _ _ _ _ _ _ _ (ar_handle _ _ AG c1 u1 (Meta f taken)) Y)|exact (yields_replies _ _ _ _ _ _ _ (hn_handle _ HN c1 u1 (Meta f taken)) Y)]. }
    cbv zeta in Gd. set (reply := match d with Accept => cf_mail_accepted cfg c' | Reject code msg => (code, msg) end) in *.
    destruct Gd as [Gr Gc].
    exists (fst (cf_data_okay cfg c1)), (fst reply), s1, out.
    split; [apply HN|]. split; [|split; [exact Nm|split]].
    + intros more.
      destruct (Dt (net past (command_send Data) ++ more) (concat (map ev_bytes more)))
        as (s3 & s4 & n2 & c3 & u3 & m3 & txt & ok & e1 & e2 & w3 & Es3 & Hw3 & -> & Sy3 & Eq3 & _ & _ & T3 & _ & _ & Wt3).
      { unfold carries. rewrite map_app, concat_app, (FN past (command_send Data)), E. now rewrite <- app_assoc. }
      destruct (waits_extends _ _ _ Wt3 Hw3) as (s5 & rest & R5 & T5 & _).
      exists s5. do 2 eexists. split; [rewrite packets_snoc, <- app_assoc; exact R5|].
      split; [rewrite T5, T3, app_assoc, <- (app_assoc _ e2 rest); reflexivity|]. apply RD; [exact Sy3|reflexivity].
    + rewrite Ess in Dn. exact Dn.
    + assert (K : idle (past ++ [command_send Data; enc]) (codes ++ [fst (cf_data_okay cfg c1); fst reply])
        (got ++ match d with Accept => [(f, taken, out)] | Reject _ _ => [] end) s1).
      { split; [exists n; rewrite packets_app; cbn [packets app]; now rewrite app_nil_r|].
        split; [exact Hw1|]. split; [now rewrite <- Eu|]. split; [unfold still_open in *; now rewrite He|].
        split; [rewrite Ess in Dn; unfold tx_good; now rewrite Dn|].
        rewrite T. split.
        - rewrite (app_assoc (st_trace s)), out_app.
          replace (g :: codes ++ [fst (cf_data_okay cfg c1); fst reply]) with ((g :: codes ++ [fst (cf_data_okay cfg c1)]) ++ [fst reply])
            by (cbn [app]; now rewrite <- app_assoc).
          apply replies_app; [apply RD; [exact Sy|reflexivity]|]. apply says_replies; [reflexivity|exact Sy2|apply Gr|apply Gr].
        - rewrite !accepted_app, Ag, (accepted_says _ _ Sy), (accepted_says _ _ Sy2), app_nil_r. now destruct d. }
      destruct d as [|dc dm]; [left; split; [exact Gc|exact K]|right]. rewrite app_nil_r in K. split; [|exact K].
      split; [unfold positive, negative in *; lia|]. intros A. apply (acc_mail _ A) in Y. discriminate Y.
  - left. destruct (plain_turn _ _ _ _ Data I Wf) as (s1 & evs & D & (l1 & El1 & R1) & Nx).
    { intros l evs c u m _ O. unfold sess_of in O. rewrite Hm in O. inversion O; subst. congruence. }
    unfold sess_of at 1 in R1. rewrite Hm in R1. rewrite E in El1. apply app_inv_tail in El1. subst l1.
    pose proof (hn_data _ HN (st_cfg s) (st_user s) (Meta f taken)) as Hneg.
    pose proof (ar_filter_data _ _ (all_good cfg HN AP) (st_cfg s) (st_user s) (Meta f taken)) as Hgood. rewrite F in Hneg, Hgood. cbn in Hneg, Hgood.
    exists dc, s1. split.
    { split; [unfold go_on, negative in *; lia|]. intros A. destruct (acc_data _ A (st_cfg s) (st_user s) (Meta f taken)) as (c9 & u9 & E9). congruence. }
    inversion R1; subst; cbn [mm_to] in *; try congruence; try not_plain.
    match goal with X : cf_filter_data _ _ _ _ = _ |- _ => rewrite F in X; injection X; intros; subst end.
    match goal with X : says (?a, ?b) ?w |- idle _ (_ ++ [?a]) _ _ => refine (Nx (a, b) [_] w eq_refl eq_refl _ X Hgood);
      rewrite accepted_app, (accepted_says _ _ X); reflexivity end.
Qed.

(** ** The client *)
Definition goes_on (past : list bytes) (codes : list N) (turns : list (bytes * N)) : Prop :=
  forall k, answered (past ++ firstn k (map fst turns)) (codes ++ firstn k (map snd turns)).
Lemma goes_on_nil past codes : answered past codes -> goes_on past codes [].
Proof. intros H k. destruct k; cbn [map firstn]; now rewrite !app_nil_r. Qed.
Lemma goes_on_cons past codes b code turns : answered past codes -> goes_on (past ++ [b]) (codes ++ [code]) turns ->
  goes_on past codes ((b, code) :: turns).
Proof.
  intros H G [|k]; cbn [map firstn fst snd]; [now rewrite !app_nil_r|]. specialize (G k). now rewrite <- !app_assoc in G.
Qed.
Definition has_recipient (m : a_mail) : Prop := snd (fst m) <> [].
Definition all_of (st : client_state) (mails : list a_mail) : list a_mail :=
  match st with Some (f, taken, todo, text) => (f, taken ++ todo, text) :: mails | None => mails end.
Definition settled (st : client_state) (mails : list a_mail) (past : list bytes) (codes : list N) (got : list a_mail) : Prop :=
  exists turns del got' s', settles cl st mails turns del /\ goes_on past codes turns
  /\ run (packets net [] (past ++ map fst turns)) = (Ret tt, s')
  /\ replies_are (out_of (st_trace s')) (g :: codes ++ map snd turns)
  /\ accepted_mails (st_trace s') = got ++ got' /\ Forall2 received_as del got'
  /\ (accepting cfg -> Forall has_recipient (all_of st mails) -> del = all_of st mails).
Lemma settled_here st mails past codes got s : idle past codes got s -> settles cl st mails [] [] ->
  (accepting cfg -> Forall has_recipient (all_of st mails) -> all_of st mails = []) -> settled st mails past codes got.
Proof.
  intros I S AA. exists [], [], []. destruct (idle_ends _ _ _ _ I) as (s' & R & Rp & Ac). exists s'.
  split; [exact S|]. split; [apply goes_on_nil; eapply idle_answered; eauto|]. cbn [map]. rewrite !app_nil_r. split; [exact R|]. split; [exact Rp|]. split; [exact Ac|]. split; [constructor|]. intros A F. symmetry. auto.
Qed.
Lemma settled_turn st mails st' mails' past codes got b code : answered past codes ->
  (forall turns del, settles cl st' mails' turns del -> settles cl st mails ((b, code) :: turns) del) ->
  (accepting cfg -> all_of st mails = all_of st' mails') ->
  settled st' mails' (past ++ [b]) (codes ++ [code]) got -> settled st mails past codes got.
Proof.
  intros A H AA (turns & del & got' & s' & S & G & R & Rp & Ac & F & Al). exists ((b, code) :: turns), del, got', s'.
  split; [now apply H|]. split; [now apply goes_on_cons|]. cbn [map fst snd]. rewrite <- !app_assoc in *.
  repeat (split; [assumption|]). intros B. rewrite (AA B). auto.
Qed.
Lemma client_settles : forall mails, Forall (can_send cl) mails ->
  forall past codes got s, idle past codes got s -> st_mail s = None -> settled None mails past codes got.
Proof.
  induction mails as [|[[f tos] text] mails IH]; intros Hm past codes got s I Mn.
  { eapply settled_here; [exact I|constructor|]. reflexivity. }
  apply Forall_inv_tail in Hm as Hm2. apply Forall_inv in Hm. destruct Hm as (Wf & Wt & Hs). specialize (IH Hm2).
  assert (Inner : forall todo taken past codes got s, Forall (fun t => wf_command (says_rcpt cl t)) todo -> idle past codes got s ->
    st_mail s = Some (Meta f taken) -> settled (Some (f, taken, todo, text)) mails past codes got).
  { clear past codes got s I Mn Wt. induction todo as [|t todo IHt]; intros taken past codes got s Wt I Mm.
    - destruct taken as [|t0 taken0] eqn:Et.
      + eapply settled_here; [exact I|apply s_no_recipient|]. intros _ F. apply Forall_inv in F. now destruct F.
      + rewrite <- Et in *. assert (Hn : taken <> []) by (rewrite Et; discriminate).
        destruct (text_turns _ _ _ _ f taken text I Mm Hn Hs) as [(code & s1 & [Hc NA] & I1)|(code & v & s1 & out & Hc & An & Nm & Mn & K)].
        * eapply settled_turn with (st' := None) (mails' := []); [eapply idle_answered; exact I| | |].
          -- intros turns del S. inversion S; subst. apply s_text_refused; eauto.
          -- intros A. contradiction.
          -- eapply settled_here; [exact I1|constructor|reflexivity].
        * assert (A0 : answered past codes) by (eapply idle_answered; exact I).
          destruct K as [[Hv I1]|[[Hv NA] I1]]; destruct (IH _ _ _ _ I1 Mn) as (turns & del & got' & s' & S & G & R & Rp & Ac & F & Al).
          -- exists ((command_send Data, code) :: (cl_text cl text, v) :: turns), ((f, taken, text) :: del), ((f, taken, out) :: got'), s'.
             split; [now apply s_delivered|]. split.
             { apply goes_on_cons; [exact A0|]. apply goes_on_cons; [exact An|]. rewrite <- !app_assoc. exact G. }
             cbn [map fst snd]. rewrite <- !app_assoc in *. repeat (split; [assumption|]).
             split; [constructor; [split; [reflexivity|exact Nm]|exact F]|].
             intros A FF. cbn [all_of] in *. rewrite app_nil_r. f_equal. apply Al; [exact A|]. now apply Forall_inv_tail in FF.
          -- exists ((command_send Data, code) :: (cl_text cl text, v) :: turns), del, got', s'.
             split; [now apply s_rejected|]. split.
             { apply goes_on_cons; [exact A0|]. apply goes_on_cons; [exact An|]. rewrite <- !app_assoc. exact G. }
             cbn [map fst snd]. rewrite <- !app_assoc in *. repeat (split; [assumption|]). contradiction.
    - apply Forall_inv_tail in Wt as Wt2. apply Forall_inv in Wt.
      destruct (recipient_turn _ _ _ _ _ t I Mm Wt) as (code & s1 & I1 & [[Hc M1]|[[Hc NA] M1]]).
      + eapply settled_turn; [eapply idle_answered; exact I| | |eapply (IHt (taken ++ [t])); [exact Wt2|exact I1|exact M1]].
        * intros turns del S. now apply s_recipient_taken.
        * intros _. cbn [all_of]. now rewrite <- app_assoc.
      + eapply settled_turn; [eapply idle_answered; exact I| | |eapply (IHt taken); [exact Wt2|exact I1|exact M1]].
        * intros turns del S. now apply s_recipient_refused.
        * contradiction. }
  destruct (sender_turn _ _ _ _ f I Mn Wf) as (code & s1 & I1 & [[Hc M1]|[[Hc NA] M1]]).
  - eapply settled_turn; [eapply idle_answered; exact I| | |eapply Inner; [exact Wt|exact I1|exact M1]].
    + intros turns del S. now apply s_sender_taken.
    + reflexivity.
  - eapply settled_turn; [eapply idle_answered; exact I| | |eapply IH; [exact I1|exact M1]].
    + intros turns del S. now apply s_sender_refused.
    + contradiction.
Qed.
Lemma greeted : exists s, idle [] [] [] s /\ st_mail s = None.
Proof.
  assert (exists s, waits_after cfg wr 0 (src_of []) w0 c0 u0 s) as (s & Wt).
  { unfold waits_after. cbn [after_lines].
    destruct (run []) as [o s'] eqn:R. pose proof (C35_success _ _ _ _ _ _ _ _ _ _ _ AP DM RW R) as ->.
    unfold interact in R. apply andthen_ret in R. destruct R as ([] & s1 & E & _). rewrite E. exists s1. reflexivity. }
  exists s. pose proof Wt as Wt0. unfold waits_after in Wt. cbn [after_lines] in Wt.
  apply andthen_ret in Wt. destruct Wt as ([] & s1 & E & E2). injection E2 as ->.
  destruct (send_reply_says _ _ _ _ _ E (ar_banner _ _ SR c0) ltac:(reflexivity)) as (P1 & P2 & w1 & P3 & P4).
  destruct P1 as (S1 & S2 & S3 & S4). cbn [st_reader st_mail st_trace app] in *. split; [|exact S3].
  split; [exists 0; exact Wt0|]. split; [exact P2|]. split; [now rewrite S4|]. split; [unfold still_open; now rewrite S4|].
  split; [unfold tx_good; cbn [sess_of se_tx]; now rewrite S3|]. rewrite P4. split.
  - apply (says_replies [] w1 (cf_welcome_banner cfg c0)); [reflexivity|exact P3|apply (ar_banner _ _ (all_good cfg HN AP) c0)|apply (ar_banner _ _ (all_good cfg HN AP) c0)].
  - eapply accepted_says; exact P3.
Qed.
End Settle.

(** ** C79 *)
Theorem C79_settled : forall C U W (cfg : config C U) (wr : writer W) w c u net cl mails,
  honest cfg -> rewrites_nothing cfg -> lawful cfg -> reliable wr -> faithful net -> Forall (can_send cl) mails ->
  exists turns delivered,
    settles cl None mails turns delivered
    /\ (forall k more, exists s tr rest,
          interact cfg wr (src_of (packets net [] (firstn k (map fst turns)) ++ more)) w c u = (Ret tt, s)
          /\ st_trace s = tr ++ rest
          /\ replies_are (concat (written_items tr)) (fst (cf_welcome_banner cfg c) :: firstn k (map snd turns)))
    /\ (accepting cfg -> Forall (fun m => snd (fst m) <> []) mails -> delivered = mails)
    /\ exists s, interact cfg wr (src_of (packets net [] (map fst turns))) w c u = (Ret tt, s)
       /\ replies_are (concat (written_items (st_trace s))) (fst (cf_welcome_banner cfg c) :: map snd turns)
       /\ Forall2 received_as delivered (accepted_mails (st_trace s)).
Proof.
  intros C U W cfg wr w c u net cl mails HN RN [DM AP] RW FN Hm.
  destruct (greeted cfg wr w c u net HN DM AP RW) as (s & I & Mn).
  destruct (client_settles cfg wr w c u net cl RN HN DM AP RW FN mails Hm [] [] [] s I Mn)
    as (turns & del & got' & s' & S & G & R & Rp & Ac & F & Al).
  exists turns, del. split; [exact S|]. split; [exact G|]. split; [exact Al|]. exists s'. split; [exact R|]. split; [exact Rp|]. now rewrite Ac.
Qed.

(** It is a client of C77, that is in no doubt. *)
Theorem C79_is_a_talk : forall cl mails turns delivered, Forall (can_send cl) mails ->
  settles cl None mails turns delivered ->
  talks None mails (map snd turns) (concat (map fst turns)) delivered [].
Proof.
  intros cl mails turns del F S.
  assert (G : forall st mails turns del, settles cl st mails turns del -> Forall (can_send cl) mails ->
    match st with Some (_, _, todo, text) => Forall (fun t => wf_command (says_rcpt cl t)) todo /\ sent_as text (cl_text cl text) | None => True end ->
    talks st mails (map snd turns) (concat (map fst turns)) del []).
  { clear. induction 1; intros F G; cbn [map fst snd concat]; try (apply Forall_inv in F as F1; apply Forall_inv_tail in F as F2; destruct F1 as (W1 & W2 & W3));
      lazymatch type of G with True => idtac | _ => destruct G as [G1 G2] end; try (apply Forall_inv in G1 as G3; apply Forall_inv_tail in G1 as G4).
    - apply t_stop.
    - apply t_sender_taken; auto.
    - apply t_sender_refused; auto.
    - apply t_recipient_taken; auto.
    - apply t_recipient_refused; auto.
    - apply t_stop.
    - apply t_text_refused; auto. apply t_stop.
    - apply t_delivered; auto.
    - apply t_text_rejected; auto. }
  exact (G _ _ _ _ S F Logic.I).
Qed.
(** The client has no choice: replies with the same codes lead it the same way. *)
Theorem C79_goes_by_the_codes : forall cl st mails turns del turns' del' more,
  settles cl st mails turns del -> settles cl st mails turns' del' ->
  map snd turns' = map snd turns ++ more -> turns' = turns /\ del' = del.
Proof.
  intros cl st mails turns del turns' del' more S. revert turns' del' more.
  induction S; intros turns' del' more S' E; inversion S'; subst; cbn [map snd app] in E; try discriminate E; auto;
    try contradiction; injection E; intros; subst; try contradiction; try discriminate; auto;
    match goal with X : map snd ?a = map snd ?b ++ _, Y : settles _ _ _ ?a ?d |- _ => destruct (IHS _ _ _ Y X) as [-> ->] end; auto.
Qed.

(** Byte by byte, with a delay before each byte. *)
Definition slow_net : network := fun _ b => flat_map (fun x => [Pend; Chunk [x]]) b.
Lemma slow_faithful : faithful slow_net.
Proof.
  intros past b. unfold slow_net, carries. induction b as [|x b IH]; [reflexivity|]. cbn [flat_map app map concat ev_bytes]. now rewrite IH.
Qed.
(** A client without parameters, that gives the sink the text in one piece. *)
Definition plain_client : client := Client (fun _ => []) (fun _ => [])
  (fun text => concat (fst (sink_end sink_accept (fst (sink_send_all sink_accept sink_new [text]))))).
Lemma plain_sends text : sent_as text (cl_text plain_client text).
Proof.
  destruct (sink_takes text) as (s & sent & E1 & E2). exists sink_accept, [text], s, sent. split; [apply app_nil_r|].
  split; [exact E1|]. split; [exact E2|]. cbn [cl_text plain_client]. rewrite E1. cbn [fst]. now rewrite E2.
Qed.
Lemma three_sendable : Forall (can_send plain_client) [mail1; mail2; mail3].
Proof.
  assert (Wf : forall cmd, command_parse (command_send cmd) = POk cmd -> wf_command cmd) by exact wf_by_parsing.
  assert (W0 : wf_command (Mail None [])) by exact (conj Logic.I wf_nil).
  assert (Wg : wf_command (Rcpt (an_email "g") [])) by (apply Wf; vm_compute; reflexivity).
  assert (Wx : wf_command (Rcpt (an_email "x") [])) by (apply Wf; vm_compute; reflexivity).
  assert (Wh : wf_command (Rcpt (an_email "h@i.jk") [])) by (apply Wf; vm_compute; reflexivity).
  assert (Wa : wf_command (Mail (Some (an_email "a@b.cd")) [])) by (apply Wf; vm_compute; reflexivity).
  repeat apply Forall_cons; try apply Forall_nil; (split; [assumption|split; [repeat apply Forall_cons; try apply Forall_nil; assumption|apply plain_sends]]).
Qed.
Definition three_turns : list (bytes * N) :=
  [(s2b "MAIL FROM:<a@b.cd>" ++ CRLF, 250); (s2b "RCPT TO:<x>" ++ CRLF, 550); (s2b "RCPT TO:<g>" ++ CRLF, 250); (s2b "DATA" ++ CRLF, 354);
   (s2b "..hi" ++ CRLF ++ s2b "." ++ CRLF, 250);
   (s2b "MAIL FROM:<>" ++ CRLF, 250); (s2b "RCPT TO:<g>" ++ CRLF, 250); (s2b "DATA" ++ CRLF, 354); (s2b "no" ++ CRLF ++ s2b "." ++ CRLF, 554);
   (s2b "MAIL FROM:<>" ++ CRLF, 250); (s2b "RCPT TO:<g>" ++ CRLF, 250); (s2b "RCPT TO:<h@i.jk>" ++ CRLF, 250); (s2b "DATA" ++ CRLF, 354);
   (s2b "." ++ CRLF, 250)]%N.
Example C79_example :
  honest fussy /\ rewrites_nothing fussy /\ lawful fussy /\ reliable test_writer /\ faithful slow_net /\ Forall (can_send plain_client) [mail1; mail2; mail3]
  /\ settles plain_client None [mail1; mail2; mail3] three_turns [(Some (an_email "a@b.cd"), [an_email "g"], s2b ".hi"); mail3]
  /\ exists s, interact fussy test_writer (src_of (packets slow_net [] (map fst three_turns))) tt [] tt = (Ret tt, s)
     /\ accepted_mails (st_trace s) = [(Some (an_email "a@b.cd"), [an_email "g"], s2b ".hi" ++ CRLF); mail3]
     /\ concat (written_items (st_trace s)) = concat (map (fun l => l ++ CRLF) [s2b "220 host Service ready"; s2b "250 Okay"; s2b "550 No such user"; s2b "250 Okay";
          s2b "354 Start mail input; end with <CRLF>.<CRLF>"; s2b "250 Okay"; s2b "250 Okay"; s2b "250 Okay";
          s2b "354 Start mail input; end with <CRLF>.<CRLF>"; s2b "554 No"; s2b "250 Okay"; s2b "250 Okay"; s2b "250 Okay";
          s2b "354 Start mail input; end with <CRLF>.<CRLF>"; s2b "250 Okay"]).
Proof.
  split; [exact fussy_honest|]. split; [exact fussy_keeps|]. split; [exact fussy_lawful|]. split; [repeat split|].
  split; [exact slow_faithful|]. split; [exact three_sendable|]. split.
  2:{ eexists. split; [vm_compute; reflexivity|]. split; vm_compute; reflexivity. }
  assert (Et : three_turns = [(command_send (says_mail plain_client (Some (an_email "a@b.cd"))), 250); (command_send (says_rcpt plain_client (an_email "x")), 550);
      (command_send (says_rcpt plain_client (an_email "g")), 250); (command_send Data, 354); (cl_text plain_client (s2b ".hi"), 250);
      (command_send (says_mail plain_client None), 250); (command_send (says_rcpt plain_client (an_email "g")), 250); (command_send Data, 354);
      (cl_text plain_client (s2b "no"), 554);
      (command_send (says_mail plain_client None), 250); (command_send (says_rcpt plain_client (an_email "g")), 250);
      (command_send (says_rcpt plain_client (an_email "h@i.jk")), 250);
      (command_send Data, 354); (cl_text plain_client [], 250)]%N) by (vm_compute; reflexivity).
  rewrite Et. clear Et. unfold mail1, mail2, mail3.
  apply s_sender_taken; [cbv; split; congruence|].
  apply s_recipient_refused; [cbv; intros [_ X]; congruence|].
  apply s_recipient_taken; [cbv; split; congruence|].
  apply s_delivered; [discriminate|cbv; split; congruence|cbv; split; congruence|].
  apply s_sender_taken; [cbv; split; congruence|].
  apply s_recipient_taken; [cbv; split; congruence|].
  apply s_rejected; [discriminate|cbv; split; congruence|cbv; intros [_ X]; congruence|].
  apply s_sender_taken; [cbv; split; congruence|].
  apply s_recipient_taken; [cbv; split; congruence|].
  apply s_recipient_taken; [cbv; split; congruence|].
  apply s_delivered; [discriminate|cbv; split; congruence|cbv; split; congruence|]. apply s_done.
Qed.
Print Assumptions C79_settled.
Print Assumptions C79_is_a_talk.
Print Assumptions C79_goes_by_the_codes.
