(** Comparing two sessions: different packets, or different writers. *)
From Verif Require Import Bytes Nom SmtpString Message Reply Stream SpecData DataProofs DataLines StreamProofs
  NomLemmas SpecReply ReplyProofs Interact PropGrammar InteractProofs SpecSession HandlerProofs TraceProofs.

Section Sim.
Context {C U W1 W2 : Type}.
Variable cfg : config C U.
Variable wr1 : writer W1.
Variable wr2 : writer W2.
Notation state1 := (@st C U W1).
Notation state2 := (@st C U W2).

(** Related writers answer alike, except that the first may fail if [lax]. *)
Variable Rw : W1 -> W2 -> Prop.
Variable lax : Prop.
Definition op_sim (r1 : bool * W1) (r2 : bool * W2) : Prop :=
  (fst r1 = fst r2 /\ Rw (snd r1) (snd r2)) \/ (lax /\ fst r1 = false).
Hypothesis Hready : forall w1 w2, Rw w1 w2 -> op_sim (w_ready wr1 w1) (w_ready wr2 w2).
Hypothesis Hsend : forall w1 w2 b, Rw w1 w2 -> op_sim (w_send wr1 w1 b) (w_send wr2 w2 b).
Hypothesis Hflush : forall w1 w2, Rw w1 w2 -> op_sim (w_flush wr1 w1) (w_flush wr2 w2).

(** Related readers give the same lines and the same results of handlers. *)
Variable Rr : prependable -> prependable -> Prop.
Hypothesis Hunread : forall p1 p2, Rr p1 p2 -> unread p1 = unread p2.
Hypothesis Hline : forall p1 p2, Rr p1 p2 ->
  fst (next_crlf_line p1) = fst (next_crlf_line p2) /\ Rr (snd (next_crlf_line p1)) (snd (next_crlf_line p2)).
Hypothesis Hhandle : forall c u m p1 p2, Rr p1 p2 ->
  let '(r1, data1, cs1, d1) := run_handler (cf_handle_mail cfg c u m) (ds_new p1) [] [] in
  let '(r2, data2, cs2, d2) := run_handler (cf_handle_mail cfg c u m) (ds_new p2) [] [] in
  r1 = r2 /\ data1 = data2 /\ cs1 = cs2 /\ ds_was_completed d1 = ds_was_completed d2
  /\ Rr (ds_source d1) (ds_source d2).

Record rel (s1 : state1) (s2 : state2) : Prop := Rel {
  rel_cfg : st_cfg s1 = st_cfg s2; rel_user : st_user s1 = st_user s2; rel_mail : st_mail s1 = st_mail s2;
  rel_reader : Rr (st_reader s1) (st_reader s2); rel_w : Rw (st_w s1) (st_w s2);
  rel_with : st_with s1 = st_with s2; rel_trace : st_trace s1 = st_trace s2
}.
Definition sim {A} (r1 : outcome A * state1) (r2 : outcome A * state2) : Prop :=
  (fst r1 = fst r2 /\ rel (snd r1) (snd r2))
  \/ (lax /\ fst r1 = WriteErr /\ exists more, st_trace (snd r2) = st_trace (snd r1) ++ more).
Definition grows {W A} (s : @st C U W) (r : outcome A * @st C U W) : Prop :=
  exists more, st_trace (snd r) = st_trace s ++ more.

Lemma grows_refl {W A} (o : outcome A) (s : @st C U W) : grows s (o, s).
Proof. exists []. now rewrite app_nil_r. Qed.
Lemma grows_trans {W A} (s s1 : @st C U W) (r : outcome A * @st C U W) :
  (exists more, st_trace s1 = st_trace s ++ more) -> grows s1 r -> grows s r.
Proof. intros (x & E) (y & F). exists (x ++ y). rewrite F, E, app_assoc. reflexivity. Qed.
Lemma grows_andthen {W A B} (s : @st C U W) (r : outcome A * @st C U W) (k : A -> @st C U W -> outcome B * @st C U W) :
  grows s r -> (forall a s1, grows s1 (k a s1)) -> grows s (andthen r k).
Proof.
  intros H Hk. destruct r as [[a| | |] s1]; cbn [andthen]; try exact H.
  eapply grows_trans; [exact H|apply Hk].
Qed.
Lemma sim_andthen {A B} (r1 : outcome A * state1) (r2 : outcome A * state2)
  (k1 : A -> state1 -> outcome B * state1) (k2 : A -> state2 -> outcome B * state2) :
  sim r1 r2 -> (forall a s1 s2, rel s1 s2 -> sim (k1 a s1) (k2 a s2)) ->
  (forall a s2, grows s2 (k2 a s2)) -> sim (andthen r1 k1) (andthen r2 k2).
Proof.
  intros H Hk Hg. destruct r1 as [o1 s1], r2 as [o2 s2]. destruct H as [[H1 H2]|(Hl & H1 & H2)]; cbn [fst snd] in *.
  - subst o2. destruct o1; cbn [andthen]; try (now left; split). now apply Hk.
  - subst o1. right. split; [exact Hl|]. split; [reflexivity|].
    destruct (grows_andthen s2 (o2, s2) k2 (grows_refl _ _) Hg) as (more & E).
    destruct H2 as (x & F). exists (x ++ more). rewrite E, F, <- app_assoc. reflexivity.
Qed.

(** Replies. *)
Lemma send_grows {W} (wr : writer W) reply (s : @st C U W) : grows s (send_reply wr reply s).
Proof.
  destruct (send_reply wr reply s) as [o s'] eqn:E. apply send_reply_weak in E.
  destruct E as (_ & (ws & T) & _). now exists (map OWrite ws).
Qed.
Lemma with_poll_grows {W} (wr : writer W) (s : @st C U W) : grows s (with_poll wr s).
Proof.
  unfold grows, with_poll. destruct (st_with s); [|exists []; now rewrite app_nil_r].
  destruct (w_send _ _ _) as [[|] w]; cbn; [eauto|exists []; now rewrite app_nil_r].
Qed.
Lemma rel_set_w (s1 : state1) (s2 : state2) w1 w2 : rel s1 s2 -> Rw w1 w2 -> rel (set_w s1 w1) (set_w s2 w2).
Proof. intros [] H. now constructor. Qed.
Lemma sim_op (s1 : state1) (s2 : state2) x1 x2 : op_sim x1 x2 -> rel s1 s2 ->
  sim (let '(b, w) := x1 in if b then (Ret tt, set_w s1 w) else (WriteErr, set_w s1 w))
      (let '(b, w) := x2 in if b then (Ret tt, set_w s2 w) else (WriteErr, set_w s2 w)).
Proof.
  destruct x1 as [b1 w1], x2 as [b2 w2]. intros [[Hb Hw]|[Hl Hb]] R; cbn [fst snd] in *; subst b1.
  - left. destruct b2; cbn [fst snd]; (split; [reflexivity|]); now apply rel_set_w.
  - right. split; [exact Hl|]. split; [reflexivity|]. exists []. rewrite app_nil_r.
    destruct b2; cbn [snd set_w st_trace]; symmetry; apply R.
Qed.
Lemma sim_with_poll (s1 : state1) (s2 : state2) : rel s1 s2 -> sim (with_poll wr1 s1) (with_poll wr2 s2).
Proof.
  intros R. unfold with_poll. rewrite (rel_with _ _ R). destruct (st_with s2) as [b|]; [|now left].
  cbv zeta. cbn [set_with st_w].
  destruct (Hsend _ _ b (rel_w _ _ R)) as [[Hb Hw]|[Hl Hb]];
    destruct (w_send wr1 (st_w s1) b) as [b1 w1], (w_send wr2 (st_w s2) b) as [b2 w2]; cbn [fst snd] in *; subst b1.
  - left. destruct R. destruct b2; (split; [reflexivity|]); constructor; cbn; auto. congruence.
  - right. split; [exact Hl|]. split; [reflexivity|]. destruct R. destruct b2; cbn; [|exists []; rewrite app_nil_r]; eauto.
    exists [OWrite b]. congruence.
Qed.
Lemma ready_grows {W} (wr : writer W) (s : @st C U W) : grows s (with_poll_ready wr s).
Proof.
  unfold with_poll_ready. apply grows_andthen; [apply with_poll_grows|]. intros _ s1.
  destruct (w_ready wr (st_w s1)) as [[|] w]; exists []; now rewrite app_nil_r.
Qed.
Lemma flush_grows {W} (wr : writer W) (s : @st C U W) : grows s (with_poll_flush wr s).
Proof.
  unfold with_poll_flush. apply grows_andthen; [apply with_poll_grows|]. intros _ s1.
  destruct (w_flush wr (st_w s1)) as [[|] w]; exists []; now rewrite app_nil_r.
Qed.
Lemma chunks_grows {W} (wr : writer W) code : forall chunks (s : @st C U W), grows s (send_chunks wr code chunks s).
Proof.
  intros chunks s. destruct (send_chunks wr code chunks s) as [o s'] eqn:E. apply send_chunks_weak in E.
  destruct E as (_ & (ws & T) & _). now exists (map OWrite ws).
Qed.
Lemma sim_ready (s1 : state1) (s2 : state2) : rel s1 s2 -> sim (with_poll_ready wr1 s1) (with_poll_ready wr2 s2).
Proof.
  intros R. unfold with_poll_ready. apply sim_andthen; [now apply sim_with_poll| |].
  - intros _ t1 t2 R'. exact (sim_op t1 t2 _ _ (Hready _ _ (rel_w _ _ R')) R').
  - intros _ t. destruct (w_ready wr2 (st_w t)) as [[|] w]; exists []; now rewrite app_nil_r.
Qed.
Lemma sim_flush (s1 : state1) (s2 : state2) : rel s1 s2 -> sim (with_poll_flush wr1 s1) (with_poll_flush wr2 s2).
Proof.
  intros R. unfold with_poll_flush. apply sim_andthen; [now apply sim_with_poll| |].
  - intros _ t1 t2 R'. exact (sim_op t1 t2 _ _ (Hflush _ _ (rel_w _ _ R')) R').
  - intros _ t. destruct (w_flush wr2 (st_w t)) as [[|] w]; exists []; now rewrite app_nil_r.
Qed.
Lemma sim_chunks code : forall chunks (s1 : state1) (s2 : state2), rel s1 s2 ->
  sim (send_chunks wr1 code chunks s1) (send_chunks wr2 code chunks s2).
Proof.
  induction chunks as [|t ts IH]; intros s1 s2 R; cbn [send_chunks]; [now apply sim_flush|].
  destruct (reply_build code _ t) as [r|e]; [|now left].
  apply sim_andthen; [now apply sim_ready| |].
  - intros _ t1 t2 R'. rewrite !with_start_send_ok. cbn [andthen]. apply IH. destruct R'. now constructor.
  - intros _ t2. rewrite with_start_send_ok. cbn [andthen].
    eapply grows_trans; [|apply chunks_grows]. exists []. now rewrite app_nil_r.
Qed.
Lemma sim_reply reply (s1 : state1) (s2 : state2) : rel s1 s2 -> sim (send_reply wr1 reply s1) (send_reply wr2 reply s2).
Proof.
  intros R. unfold send_reply. destruct (byte_chunks _ _); [now apply sim_chunks|now left].
Qed.

(** One line. *)
Lemma rel_log s1 s2 o : rel s1 s2 -> rel (log s1 o) (log s2 o).
Proof. intros []. constructor; cbn; auto. congruence. Qed.
Lemma rel_cu s1 s2 c u : rel s1 s2 -> rel (set_cu s1 c u) (set_cu s2 c u).
Proof. intros []. now constructor. Qed.
Lemma rel_cfg_ s1 s2 c : rel s1 s2 -> rel (set_cfg s1 c) (set_cfg s2 c).
Proof. intros []. now constructor. Qed.
Lemma rel_mail_ s1 s2 m : rel s1 s2 -> rel (set_mail s1 m) (set_mail s2 m).
Proof. intros []. now constructor. Qed.
Lemma rel_reader_ s1 s2 p1 p2 : rel s1 s2 -> Rr p1 p2 -> rel (set_reader s1 p1) (set_reader s2 p2).
Proof. intros []. now constructor. Qed.
Lemma mail_grows {W} (wr : writer W) m (s : @st C U W) : grows s (receive_mail cfg wr m s).
Proof.
  unfold receive_mail. destruct (run_handler _ _ _ _) as [[[r data] cs] d].
  destruct r as [[[v c] u]| | |]; cbv zeta.
  - destruct (ds_was_completed d).
    + destruct v; (eapply grows_trans; [|apply send_grows]); cbn; eauto.
    + eexists. reflexivity.
  - exists []. now rewrite app_nil_r.
  - eexists. reflexivity.
  - exists []. now rewrite app_nil_r.
Qed.
Lemma sim_receive m (s1 : state1) (s2 : state2) : rel s1 s2 -> sim (receive_mail cfg wr1 m s1) (receive_mail cfg wr2 m s2).
Proof.
  intros R. unfold receive_mail. rewrite (rel_cfg _ _ R), (rel_user _ _ R).
  pose proof (Hhandle (st_cfg s2) (st_user s2) m _ _ (rel_reader _ _ R)) as H.
  destruct (run_handler _ (ds_new (st_reader s1)) [] []) as [[[r1 data1] cs1] d1].
  destruct (run_handler _ (ds_new (st_reader s2)) [] []) as [[[r2 data2] cs2] d2].
  destruct H as (-> & -> & -> & -> & Hr). cbv zeta.
  assert (R1 : rel (set_reader s1 (ds_source d1)) (set_reader s2 (ds_source d2))) by now apply rel_reader_.
  destruct r2 as [[[v c] u]| | |].
  - set (t1 := log (set_cu (set_reader s1 _) c u) _). set (t2 := log (set_cu (set_reader s2 _) c u) _).
    assert (R2 : rel t1 t2) by now apply rel_log, rel_cu.
    destruct (ds_was_completed d2); [|now left].
    destruct v; [|now apply sim_reply].
    rewrite (rel_cfg _ _ R2). now apply sim_reply.
  - now left.
  - left. split; [reflexivity|]. now apply rel_log.
  - now left.
Qed.
Lemma line_grows {W} (wr : writer W) line (s : @st C U W) : grows s (handle_line cfg wr line s).
Proof.
  pose proof (handle_line_weak cfg wr line s) as H. destruct (handle_line cfg wr line s) as [o s'].
  destruct H as (_ & _ & evs & H & _). now exists evs.
Qed.
Lemma sim_line line (s1 : state1) (s2 : state2) : rel s1 s2 ->
  sim (handle_line cfg wr1 line s1) (handle_line cfg wr2 line s2).
Proof.
  intros R. pose proof (rel_cfg _ _ R) as Rc. pose proof (rel_user _ _ R) as Ru. pose proof (rel_mail _ _ R) as Rm.
  assert (Hset : forall reply (t1 : state1) (t2 : state2) m, rel t1 t2 ->
    sim (andthen (send_reply wr1 reply t1) (fun _ s => (Ret tt, set_mail s m)))
        (andthen (send_reply wr2 reply t2) (fun _ s => (Ret tt, set_mail s m)))).
  { intros reply t1 t2 m Rt. apply sim_andthen; [now apply sim_reply| |].
    - intros _ x1 x2 Rx. left. split; [reflexivity|]. now apply rel_mail_.
    - intros _ x. exists []. now rewrite app_nil_r. }
  unfold handle_line. rewrite <- Rc.
  destruct (command_parse line) as [cmd| | | |]; try (now apply sim_reply); [|now left].
  destruct cmd as [|?|?|?|?|from ps|?| |to ps| |?]; try (now apply sim_reply).
  - unfold handle_data_cmd. rewrite <- Rm. destruct (st_mail s1) as [m|]; [|rewrite <- Rc; now apply sim_reply].
    cbv zeta. cbn [set_mail st_cfg st_user]. rewrite <- Rc, <- Ru.
    assert (R0 : rel (set_mail s1 None) (set_mail s2 None)) by now apply rel_mail_.
    destruct (mm_to m); [now apply Hset|].
    destruct (cf_filter_data cfg (st_cfg s1) (st_user s1) m) as [[[[|code msg] c] u] m'].
    + cbn [log set_cu st_cfg]. apply sim_andthen.
      * apply sim_reply. now apply rel_log, rel_cu.
      * intros _ t1 t2 Rt. now apply sim_receive.
      * intros _ t. apply mail_grows.
    + apply Hset. now apply rel_log, rel_cu.
  - unfold handle_mail_cmd. rewrite <- Rm. destruct (st_mail s1) as [m|]; [rewrite <- Rc; now apply sim_reply|].
    cbv zeta. cbn [log set_cfg st_cfg st_user]. rewrite <- Rc, <- Ru.
    destruct (cf_filter_from cfg (cf_new_mail cfg (st_cfg s1)) (st_user s1) from) as [[[[|code msg] c] u] from'].
    + cbn [set_cu st_cfg]. apply Hset. now apply rel_log, rel_cu, (rel_log (set_cfg s1 _) (set_cfg s2 _)), rel_cfg_.
    + apply sim_reply. now apply rel_log, rel_cu, (rel_log (set_cfg s1 _) (set_cfg s2 _)), rel_cfg_.
  - unfold handle_rcpt_cmd. rewrite <- Rm. destruct (st_mail s1) as [m|]; [|rewrite <- Rc; now apply sim_reply].
    rewrite <- Rc, <- Ru.
    destruct (cf_filter_to cfg (st_cfg s1) (st_user s1) m to) as [[[[[|code msg] c] u] m'] to']; cbv zeta;
      cbn [log set_cu set_mail st_cfg].
    + apply sim_reply. now apply rel_mail_, (rel_log (set_mail (set_cu s1 c u) _) (set_mail (set_cu s2 c u) _)), rel_mail_, rel_cu.
    + apply sim_reply. now apply (rel_log (set_mail (set_cu s1 c u) _) (set_mail (set_cu s2 c u) _)), rel_mail_, rel_cu.
Qed.

(** The session. *)
Lemma loop_grows {W} (wr : writer W) : forall fuel (s : @st C U W), grows s (interact_loop cfg wr fuel s).
Proof.
  induction fuel as [|fuel IH]; intros s; cbn [interact_loop]; [apply grows_refl|].
  destruct (next_crlf_line (st_reader s)) as [[l| | |] p]; try (exists []; now rewrite app_nil_r).
  apply grows_andthen; [exact (line_grows wr l (set_reader s p))|]. auto.
Qed.
Lemma sim_loop : forall f1 f2 (s1 : state1) (s2 : state2), rel s1 s2 ->
  length (unread (st_reader s1)) < f1 -> length (unread (st_reader s1)) < f2 ->
  sim (interact_loop cfg wr1 f1 s1) (interact_loop cfg wr2 f2 s2).
Proof.
  induction f1 as [|f1 IH]; intros f2 s1 s2 R H1 H2; [lia|]. destruct f2 as [|f2]; [lia|].
  cbn [interact_loop]. destruct (Hline _ _ (rel_reader _ _ R)) as [L1 L2].
  pose proof (next_crlf_line_ok (st_reader s1)) as P. unfold StreamProofs.line_post in P. cbn [app] in P.
  destruct (next_crlf_line (st_reader s1)) as [x1 p1], (next_crlf_line (st_reader s2)) as [x2 p2].
  cbn [fst snd] in *. subst x2. destruct x1 as [l| | |]; try tauto.
  - destruct P as (a & b & E & _ & _ & Hb & _).
    assert (Hl : length (unread p1) < f1 /\ length (unread p1) < f2).
    { rewrite E, !app_length in H1, H2. cbn in H1, H2. rewrite Hb. lia. }
    assert (R1 : rel (set_reader s1 p1) (set_reader s2 p2)) by now apply rel_reader_.
    (* the continuation needs the reader bound, so split by hand *)
    pose proof (sim_line l _ _ R1) as S. pose proof (handle_line_weak cfg wr1 l (set_reader s1 p1)) as Wk.
    unfold line_post in Wk.
    destruct (handle_line cfg wr1 l (set_reader s1 p1)) as [o1 t1].
    destruct (handle_line cfg wr2 l (set_reader s2 p2)) as [o2 t2].
    cbn [set_reader st_reader] in Wk. destruct Wk as (_ & Wk & _).
    destruct S as [[S1 S2]|(Hl' & S1 & more & S2)]; cbn [fst snd] in *.
    + subst o2. destruct o1; cbn [andthen]; try (now left; split). apply IH; auto; lia.
    + subst o1. right. split; [exact Hl'|]. split; [reflexivity|].
      destruct (grows_andthen t2 (o2, t2) (fun _ s => interact_loop cfg wr2 f2 s) (grows_refl _ _)
                  (fun _ s => loop_grows wr2 f2 s)) as (y & F).
      exists (more ++ y). rewrite F, S2, <- app_assoc. reflexivity.
  - left. split; [reflexivity|]. now apply rel_reader_.
Qed.
Lemma sim_interact src1 src2 w1 w2 c u : Rr (prep_new src1) (prep_new src2) -> Rw w1 w2 ->
  sim (interact cfg wr1 src1 w1 c u) (interact cfg wr2 src2 w2 c u).
Proof.
  intros Hr Hw. unfold interact.
  set (s1 := St c u None (prep_new src1) w1 None []). set (s2 := St c u None (prep_new src2) w2 None []).
  assert (R : rel s1 s2) by now constructor.
  pose proof (sim_reply (cf_welcome_banner cfg c) _ _ R) as S.
  destruct (send_reply wr1 _ s1) as [o1 t1], (send_reply wr2 _ s2) as [o2 t2].
  destruct S as [[S1 S2]|(Hl' & S1 & more & S2)]; cbn [fst snd] in *.
  - subst o2. destruct o1; cbn [andthen]; try (now left; split).
    pose proof (Hunread _ _ (rel_reader _ _ S2)) as E.
    pose proof (unread_size (st_reader t1)). pose proof (unread_size (st_reader t2)).
    apply sim_loop; auto; [lia|]. rewrite E. lia.
  - subst o1. right. split; [exact Hl'|]. split; [reflexivity|].
    destruct (grows_andthen t2 (o2, t2) (fun _ s => interact_loop cfg wr2 (S (prep_size (st_reader s))) s) (grows_refl _ _)
                (fun _ s => loop_grows wr2 _ s)) as (y & F).
    exists (more ++ y). rewrite F, S2, <- app_assoc. reflexivity.
Qed.
End Sim.
