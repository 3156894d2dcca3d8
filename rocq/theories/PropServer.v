(** Properties C30-C39 and C41: server sessions. *)
From Verif Require Import Bytes Nom SmtpString Message Reply Stream SpecData DataProofs DataLines StreamProofs
  NomLemmas SpecReply ReplyProofs Interact RepoSessions PropGrammar InteractProofs SpecSession SpecExchange
  HandlerProofs SessionProofs TraceProofs ExchangeProofs LawfulProofs SimProofs.

(** ** The configuration of the repository's tests meets every hypothesis below *)
Definition test_k (c : mails) (u : unit) (m : mail_meta) (text : bytes) (ok : bool) : decision * mails * unit :=
  if negb ok then (Reject BAD_SEQUENCE (s2b "Closed the channel before end of message"), c, u)
  else match find_sub (s2b "World") text with
       | Some _ => (Reject POLICY_REASON (s2b "Don't you dare say 'World'!"), c, u)
       | None => (Accept, c ++ [(mm_from m, mm_to m, text)], u)
       end.
Example test_whole : whole_mail test_config test_k.
Proof.
  intros c u m. do 2 eexists. split; [reflexivity|]. split; [reflexivity|]. intros items. eexists.
  split; [reflexivity|]. intros ok. unfold test_k. destruct (negb ok); [reflexivity|].
  destruct (find_sub _ _); reflexivity.
Qed.
Lemma whole_drain {C U} (cfg : config C U) k : whole_mail cfg k -> drain_mail cfg.
Proof. intros H c u m. exact (whole_drains _ _ (H c u m)). Qed.
Example test_drain : drain_mail test_config.
Proof. exact (whole_drain _ _ test_whole). Qed.
Example test_replies : all_replies good_reply test_config.
Proof.
  assert (Hp : forall s, forallb (fun c => (c =? 9)%N || ((32 <=? c)%N && (c <=? 126)%N)) s = true -> Forall printable s).
  { intros s H. rewrite forallb_forall in H. apply Forall_forall. intros x Hx. apply H in Hx. unfold printable.
    rewrite orb_true_iff, andb_true_iff, N.eqb_eq, !N.leb_le in Hx. exact Hx. }
  assert (Hg : forall r, (fst r <? 1000)%N && (N.of_nat (length (snd r)) + 506 <=? 18446744073709551616)%N
    && forallb (fun c => (c =? 9)%N || ((32 <=? c)%N && (c <=? 126)%N)) (snd r) = true -> good_reply r).
  { intros r H. rewrite !andb_true_iff, N.ltb_lt, N.leb_le in H. destruct H as [[H1 H2] H3].
    split; [split; assumption|]. apply Hp. exact H3. }
  constructor; intros; try (apply Hg; vm_compute; reflexivity).
  - cbn. unfold test_filter_from. destruct f as [e|]; [|exact I]. destruct (beq _ _); [|exact I].
    apply Hg. vm_compute. reflexivity.
  - cbn. unfold test_filter_to. destruct (beq _ _); [|exact I]. apply Hg. vm_compute. reflexivity.
  - exact I.
  - cbn. intros items over ok. destruct (negb ok); [apply Hg; vm_compute; reflexivity|].
    destruct (find_sub _ _); [apply Hg; vm_compute; reflexivity|exact I].
Qed.
Example test_sendable : all_replies sendable_reply test_config.
Proof. exact (all_replies_impl test_config _ _ (fun r H => proj1 H) test_replies). Qed.
Example test_keeps : keeps_meta test_config.
Proof.
  split; intros; cbn; [|reflexivity]. unfold test_filter_to. now destruct (beq _ _).
Qed.
(** A dialogue with everything in it, used as a witness below. *)
Definition sample : list bytes :=
  [ln "DATA"; ln "MAIL FROM:<a@b.cd>"; ln "MAIL FROM:<>"; ln "DATA"; ln "RCPT TO:<baz@b.cd>"; ln "RCPT TO:<e@b.cd>";
   ln "NOOP"; ln "what"; ln "DATA"; ln "..x"; ln "MAIL FROM:<>"; ln "."; ln "RSET"; s2b "QUI"].
Example sample_run :
  let '(o, s) := interact test_config test_writer (src_of (map Chunk sample)) tt [] tt in
  o = Ret tt /\ length (st_cfg s) = 1 /\ length (st_trace s) = 18.
Proof. vm_compute. repeat split. Qed.

(** ** C30 *)
Lemma line_unread p1 p2 : unread p1 = unread p2 ->
  fst (next_crlf_line p1) = fst (next_crlf_line p2)
  /\ unread (snd (next_crlf_line p1)) = unread (snd (next_crlf_line p2)).
Proof.
  intros E. pose proof (next_crlf_line_ok p1) as P. unfold StreamProofs.line_post in P. cbn [app] in P.
  destruct (next_crlf_line p1) as [[l| | |] p1']; try tauto.
  - destruct P as (a & b & Ea & Ha & -> & Hb & _).
    destruct (next_line_cons p2 a [] b) as (p2' & -> & H2); auto.
    { rewrite <- E, Ea. cbn. rewrite app_nil_r, <- app_assoc. reflexivity. }
    cbn [fst snd]. split; [reflexivity|]. rewrite Hb, H2. reflexivity.
  - destruct P as [Ht ->].
    destruct (next_line_tail p2) as (p2' & -> & H2); [now rewrite <- E|].
    cbn [fst snd]. split; [reflexivity|]. rewrite H2, <- E. unfold unread; cbn. now rewrite app_nil_r.
Qed.
Lemma whole_unread {C U} (h : handler C U) k p1 p2 : reads_whole h k -> unread p1 = unread p2 ->
  let '(r1, data1, cs1, d1) := run_handler h (ds_new p1) [] [] in
  let '(r2, data2, cs2, d2) := run_handler h (ds_new p2) [] [] in
  r1 = r2 /\ data1 = data2 /\ cs1 = cs2 /\ ds_was_completed d1 = ds_was_completed d2
  /\ unread (ds_source d1) = unread (ds_source d2).
Proof.
  intros Hw E. pose proof (whole_drains _ _ Hw) as Hd.
  destruct (run_drains_new h p1 Hd) as (r1 & t1 & ok1 & d1 & -> & Y1 & C1 & M1).
  destruct (run_drains_new h p2 Hd) as (r2 & t2 & ok2 & d2 & -> & Y2 & C2 & M2).
  apply (whole_yields _ _ _ _ _ Hw) in Y1, Y2. subst r1 r2. rewrite <- E in M2.
  assert (H : t1 = t2 /\ ok1 = ok2 /\ unread (ds_source d1) = unread (ds_source d2)).
  { destruct M1 as [(-> & M1 & _)|(-> & M1 & U1 & _)], M2 as [(-> & M2 & _)|(-> & M2 & U2 & _)];
      try apply dec_transfer in M1; try apply dec_transfer in M2;
      try apply dec_interrupted in M1; try apply dec_interrupted in M2; rewrite M1 in M2; try discriminate M2.
    - injection M2 as -> ->. auto.
    - injection M2 as ->. now rewrite U1, U2. }
  destruct H as (-> & -> & H). unfold ds_was_completed. rewrite C1, C2. auto.
Qed.
Theorem C30_packets_do_not_matter : forall C U W (cfg : config C U) k (wr : writer W) wire evs1 evs2 w c u o1 s1 o2 s2,
  whole_mail cfg k -> carries evs1 wire -> carries evs2 wire ->
  interact cfg wr (src_of evs1) w c u = (o1, s1) -> interact cfg wr (src_of evs2) w c u = (o2, s2) ->
  o1 = o2 /\ st_trace s1 = st_trace s2 /\ st_w s1 = st_w s2
  /\ st_cfg s1 = st_cfg s2 /\ st_user s1 = st_user s2 /\ st_mail s1 = st_mail s2.
Proof.
  intros C U W cfg k wr wire evs1 evs2 w c u o1 s1 o2 s2 Hk H1 H2 E1 E2.
  assert (S : sim eq False (fun p1 p2 => unread p1 = unread p2)
    (interact cfg wr (src_of evs1) w c u) (interact cfg wr (src_of evs2) w c u)).
  { apply sim_interact; auto.
    - intros w1 w2 ->. left. auto.
    - intros w1 w2 b ->. left. auto.
    - intros w1 w2 ->. left. auto.
    - intros p1 p2. apply line_unread.
    - intros c' u' m p1 p2. apply whole_unread with (k := k c' u' m). apply Hk.
    - unfold carries in *. unfold unread, prep_new, src_bytes, src_of; cbn. congruence. }
  rewrite E1, E2 in S. destruct S as [[S1 []]|[[] _]]; cbn [fst snd] in *. repeat split; assumption.
Qed.
Print Assumptions C30_packets_do_not_matter.
(** Packets do differ: bytewise, with a pending poll before every byte. *)
Example C30_example :
  let r := interact test_config test_writer (src_of (flat_map (fun b => [Pend; Chunk [b]]) (concat sample))) tt [] tt in
  fst r = Ret tt /\ length (st_trace (snd r)) = 18.
Proof. vm_compute. split; reflexivity. Qed.

(** ** C31 *)
(** For filters that leave the metadata they are shown alone (they may rewrite
    the sender and the recipient they are asked about). *)
Theorem C31_envelope : forall C U W (cfg : config C U) (wr : writer W) src w c u o s pre u1 m data cs v post,
  keeps_meta cfg -> interact cfg wr src w c u = (o, s) ->
  st_trace s = pre ++ OHandle u1 m data cs v :: post ->
  exists hist u0 ws, pre = hist ++ OFilterData u0 m Accept u1 m :: map OWrite ws
  /\ mm_to m <> [] /\ open_transaction hist m.
Proof.
  intros C U W cfg wr src w c u o s pre u1 m data cs v post K E Ht.
  destruct (interact_weak _ _ _ _ _ _ _ _ E) as (_ & bs & evs & T & R). rewrite T in Ht.
  apply eq_sym, split_mid in Ht. destruct Ht as [(p & X & _)|(p & -> & ->)].
  { exfalso. apply (not_in_writes (OHandle u1 m data cs v) bs); [discriminate|]. rewrite X. apply in_elt. }
  destruct (run_envelope cfg K _ _ _ R (map OWrite bs)) with (pre := p) (u := u1) (m := m) (data := data) (cs := cs) (v := v) (post := post)
    as (pre1 & u0 & ws & -> & H1 & H2); [intros x Hx; discriminate|reflexivity|].
  exists (map OWrite bs ++ pre1), u0, ws. rewrite <- app_assoc. auto.
Qed.
Print Assumptions C31_envelope.
(** For every configuration: the envelope is what the callbacks' results leave. *)
Theorem C31_envelope_any_filters : forall C U W (cfg : config C U) (wr : writer W) src w c u o s pre u1 m data cs v post,
  interact cfg wr src w c u = (o, s) ->
  st_trace s = pre ++ OHandle u1 m data cs v :: post ->
  exists hist u0 m0 ws, pre = hist ++ OFilterData u0 m0 Accept u1 m :: map OWrite ws
  /\ mm_to m0 <> [] /\ replay hist = Some m0
  /\ exists c0 c1, cf_filter_data cfg c0 u0 m0 = (Accept, c1, u1, m).
Proof.
  intros C U W cfg wr src w c u o s pre u1 m data cs v post E Ht.
  destruct (interact_weak _ _ _ _ _ _ _ _ E) as (_ & bs & evs & T & R). rewrite T in Ht.
  apply eq_sym, split_mid in Ht. destruct Ht as [(p & X & _)|(p & -> & ->)].
  { exfalso. apply (not_in_writes (OHandle u1 m data cs v) bs); [discriminate|]. rewrite X. apply in_elt. }
  destruct (run_events_handle cfg _ _ _ R p u1 m data cs v post eq_refl) as (pre1 & u0 & m0 & ws & -> & H1 & H2 & H3 & _).
  exists (map OWrite bs ++ pre1), u0, m0, ws. rewrite <- app_assoc. repeat split; auto.
  unfold replay. rewrite fold_left_app. replace (fold_left tx_step (map OWrite bs) None) with (@None mail_meta); [exact H2|].
  clear. generalize (@None mail_meta) as tx. induction bs; intros; cbn; auto.
Qed.
Print Assumptions C31_envelope_any_filters.
Definition is_handle {U} (o : obs U) : bool := match o with OHandle _ _ _ _ _ => true | _ => false end.
Lemma some_handle {U} (tr : list (obs U)) : existsb is_handle tr = true ->
  exists pre u1 m data cs v post, tr = pre ++ OHandle u1 m data cs v :: post.
Proof.
  intros H. apply existsb_exists in H. destruct H as (o & Hin & Ho). destruct o; try discriminate.
  apply in_split in Hin. destruct Hin as (pre & post & E). rewrite E. repeat eexists.
Qed.
Example C31_example : exists pre u1 m data cs v post,
  st_trace (snd (interact test_config test_writer (src_of (map Chunk sample)) tt [] tt)) = pre ++ OHandle u1 m data cs v :: post.
Proof. apply some_handle. vm_compute. reflexivity. Qed.

(** ** C32 *)
Lemma send_answered {C U W} (wr : writer W) reply (s : @st C U W) o s' : sendable_reply reply -> st_with s = None ->
  send_reply wr reply s = (o, s') ->
  same_session s s' /\ exists ws, st_trace s' = st_trace s ++ map OWrite ws /\ answered reply ws (o = Ret tt).
Proof.
  intros [H1 H2] Hw E. pose proof (send_reply_ok wr reply s Hw H2) as P. rewrite E in P.
  destruct P as (P1 & (ws & rest & P2 & P3 & P4) & _). split; [exact P1|]. exists ws. split; [exact P3|].
  exists rest. split; [|intros ->; now apply (P4 tt)]. rewrite <- P2. now apply reply_items_full.
Qed.
Theorem C32_out_of_order : forall C U W (cfg : config C U) (wr : writer W) line cmd reply (s : @st C U W) o s',
  st_with s = None -> command_parse line = POk cmd ->
  out_of_order cfg (st_cfg s) (st_mail s) cmd reply -> sendable_reply reply ->
  handle_line cfg wr line s = (o, s') ->
  (exists ws, st_trace s' = st_trace s ++ map OWrite ws /\ answered reply ws (o = Ret tt))
  /\ st_cfg s' = st_cfg s /\ st_user s' = st_user s /\ st_reader s' = st_reader s
  /\ (o = Ret tt -> st_mail s' = st_mail s).
Proof.
  intros C U W cfg wr line cmd reply s o s' Hw Ep Ho Hr E. unfold handle_line in E. rewrite Ep in E.
  assert (Hsend : send_reply wr reply s = (o, s') ->
    (exists ws, st_trace s' = st_trace s ++ map OWrite ws /\ answered reply ws (o = Ret tt))
    /\ st_cfg s' = st_cfg s /\ st_user s' = st_user s /\ st_reader s' = st_reader s
    /\ (o = Ret tt -> st_mail s' = st_mail s)).
  { intros E'. destruct (send_answered wr reply s o s' Hr Hw E') as ((S1 & S2 & S3 & S4) & H). auto. }
  destruct (st_mail s) as [m|] eqn:Em; inversion Ho; subst.
  - unfold handle_mail_cmd in E. rewrite Em in E. auto.
  - unfold handle_data_cmd in E. rewrite Em in E. cbv zeta in E.
    match goal with X : mm_to m = [] |- _ => rewrite X in E end.
    destruct (send_reply wr (cf_data_before_rcpt cfg (st_cfg (set_mail s None))) (set_mail s None)) as [o1 s1] eqn:E1.
    destruct (send_answered wr _ (set_mail s None) _ _ Hr Hw E1) as ((S1 & S2 & S3 & S4) & ws & T & A).
    cbn in S1, S2, S3, S4, T.
    assert (F : o = o1 /\ st_trace s' = st_trace s1 /\ st_cfg s' = st_cfg s1 /\ st_user s' = st_user s1
      /\ st_reader s' = st_reader s1 /\ (o = Ret tt -> st_mail s' = Some m)).
    { destruct o1 as [[]| | |]; cbn [andthen] in E; injection E as <- <-; cbn; repeat split; auto; discriminate. }
    destruct F as (-> & -> & -> & -> & -> & F). repeat split; auto. eauto.
  - unfold handle_rcpt_cmd in E. rewrite Em in E. auto.
  - unfold handle_data_cmd in E. rewrite Em in E. auto.
Qed.
Print Assumptions C32_out_of_order.
Example C32_example : out_of_order test_config [] None Data (cf_data_before_mail test_config [])
  /\ sendable_reply (cf_data_before_mail test_config []) /\ command_parse (ln "DATA") = POk Data.
Proof. split; [constructor|]. split; [apply (ar_data_before_mail _ _ test_sendable)|]. vm_compute. reflexivity. Qed.

(** ** C33 and C38 *)
(** [P] is any property that every reply the configuration asks for has, such as
    having a text: one reply per command is one such reply. *)
Theorem C33_one_reply_per_command : forall C U W (cfg : config C U) (wr : writer W) (P : N * bytes -> Prop) src w c u s,
  all_replies sendable_reply cfg -> all_replies P cfg -> drain_mail cfg ->
  interact cfg wr src w c u = (Ret tt, s) ->
  exists banner evs xs tail, st_trace s = map OWrite banner ++ evs
  /\ full_reply (fst (cf_welcome_banner cfg c)) (snd (cf_welcome_banner cfg c)) banner
  /\ partition (src_bytes src) evs xs tail /\ Forall (replies_ok P) xs /\ Forall content_ok xs.
Proof.
  intros C U W cfg wr P src w c u s Hr Hp Hd E.
  destruct (interact_ret cfg wr Hr Hd _ _ _ _ _ _ E) as (banner & evs & T & (ws & B1 & ->) & D & _).
  destruct (dialogue_partition cfg P Hp _ _ _ _ D) as (xs & tail & Hx & H1 & H2).
  exists ws, evs, xs, tail. auto.
Qed.
Print Assumptions C33_one_reply_per_command.
(** Every reply of the test configuration has a text, so every command is answered. *)
Example C33_hypotheses : all_replies sendable_reply test_config /\ all_replies (fun r => snd r <> []) test_config
  /\ drain_mail test_config.
Proof.
  split; [exact test_sendable|]. split; [|exact test_drain].
  constructor; intros; try discriminate; try exact I; cbn.
  - unfold test_filter_from. destruct f as [e|]; [|exact I]. destruct (beq _ _); [discriminate|exact I].
  - unfold test_filter_to. destruct (beq _ _); [discriminate|exact I].
  - intros items over ok. destruct (negb ok); [discriminate|]. destruct (find_sub _ _); [discriminate|exact I].
Qed.
Example C33_a_reply_is_something : forall P (evs : list (obs unit)), (forall code, ~ P (code, [])) -> one_reply P evs ->
  exists w, In (OWrite w) evs.
Proof.
  intros P evs HP (calls & code & text & ws & H1 & -> & _ & (ts & H3 & H4)). destruct H3 as [|p Hp|p s ps].
  - now apply HP in H1.
  - inversion H4; subst. eexists. apply in_app_iff. right. now left.
  - inversion H4; subst; eexists; apply in_app_iff; right; now left.
Qed.
Theorem C38_content_and_commands : forall C U W (cfg : config C U) (wr : writer W) src w c u s,
  all_replies sendable_reply cfg -> drain_mail cfg ->
  interact cfg wr src w c u = (Ret tt, s) ->
  exists banner evs xs tail, st_trace s = map OWrite banner ++ evs
  /\ partition (src_bytes src) evs xs tail /\ Forall content_ok xs.
Proof.
  intros C U W cfg wr src w c u s Hr Hd E.
  destruct (interact_ret cfg wr Hr Hd _ _ _ _ _ _ E) as (banner & evs & T & (ws & B1 & ->) & D & _).
  destruct (dialogue_partition cfg _ Hr _ _ _ _ D) as (xs & tail & P & _ & H1).
  exists ws, evs, xs, tail. auto.
Qed.
Print Assumptions C38_content_and_commands.
(** The session that the incoming bytes determine, whatever the packets: the
    relation [dialogue] of SpecSession.v. *)
Theorem C33_session_is_the_dialogue : forall C U W (cfg : config C U) (wr : writer W) src w c u s,
  all_replies sendable_reply cfg -> drain_mail cfg ->
  interact cfg wr src w c u = (Ret tt, s) ->
  exists banner evs, st_trace s = banner ++ evs /\ says (cf_welcome_banner cfg c) banner
  /\ dialogue cfg (Sess c u None) (src_bytes src) evs (Sess (st_cfg s) (st_user s) (st_mail s))
  /\ st_with s = None.
Proof. intros. eapply interact_ret; eauto. Qed.
Print Assumptions C33_session_is_the_dialogue.

(** ** C34 *)
Theorem C34_refusals : forall C U W (cfg : config C U) (wr : writer W) line cmd calls tx' reply (s : @st C U W) o s',
  st_with s = None -> command_parse line = POk cmd ->
  refused cfg (st_cfg s) (st_user s) (st_mail s) cmd calls tx' reply -> sendable_reply reply ->
  handle_line cfg wr line s = (o, s') ->
  (exists ws, st_trace s' = st_trace s ++ calls ++ map OWrite ws /\ answered reply ws (o = Ret tt))
  /\ st_reader s' = st_reader s /\ (o = Ret tt -> st_mail s' = tx').
Proof.
  intros C U W cfg wr line cmd calls tx' reply s o s' Hw Ep Hf Hr E. unfold handle_line in E. rewrite Ep in E.
  destruct (st_mail s) as [m|] eqn:Em; inversion Hf; subst.
  - unfold handle_rcpt_cmd in E. rewrite Em in E.
    match goal with X : cf_filter_to _ _ _ _ _ = _ |- _ => rewrite X in E end. cbv zeta in E.
    destruct (send_answered wr (code, msg) (log (set_mail (set_cu s c' u') (Some m')) _) _ _ Hr Hw E)
      as ((S1 & S2 & S3 & S4) & ws & T & A). cbn in S3, S4, T.
    split; [exists ws; split; [rewrite T, <- app_assoc; reflexivity|exact A]|]. auto.
  - unfold handle_data_cmd in E. rewrite Em in E. cbv zeta in E.
    destruct (mm_to m) eqn:Et; [contradiction|]. cbn [set_mail st_cfg st_user] in E.
    match goal with X : cf_filter_data _ _ _ _ = _ |- _ => rewrite X in E end.
    set (s0 := log _ _) in E. destruct (send_reply wr (code, msg) s0) as [o1 s1] eqn:E1.
    destruct (send_answered wr (code, msg) s0 _ _ Hr Hw E1) as ((S1 & S2 & S3 & S4) & ws & T & A). cbn in S3, S4, T.
    assert (F : o = o1 /\ st_trace s' = st_trace s1 /\ st_reader s' = st_reader s1 /\ (o = Ret tt -> st_mail s' = Some m')).
    { destruct o1 as [[]| | |]; cbn [andthen] in E; injection E as <- <-; cbn; repeat split; auto; discriminate. }
    destruct F as (-> & -> & -> & F).
    split; [exists ws; split; [rewrite T, <- app_assoc; reflexivity|exact A]|]. auto.
  - unfold handle_mail_cmd in E. rewrite Em in E. cbv zeta in E. cbn [log set_cfg st_cfg st_user] in E.
    match goal with X : cf_filter_from _ _ _ _ = _ |- _ => rewrite X in E end.
    set (s0 := log _ (OFrom _ _ _ _ _)) in E.
    destruct (send_answered wr (code, msg) s0 _ _ Hr Hw E) as ((S1 & S2 & S3 & S4) & ws & T & A). cbn in S3, S4, T.
    split; [exists ws; split; [rewrite T, <- !app_assoc; reflexivity|exact A]|]. rewrite S3, Em. auto.
Qed.
Print Assumptions C34_refusals.
(** After the handler the transaction is over, whatever its verdict. *)
Theorem C34_closed_after_mail : forall C U W (cfg : config C U) (wr : writer W) line (s : @st C U W) s' pre u m data cs v post,
  handle_line cfg wr line s = (Ret tt, s') -> st_trace s' = st_trace s ++ pre ++ OHandle u m data cs v :: post ->
  st_mail s' = None.
Proof.
  intros C U W cfg wr line s s' pre u m data cs v post E Ht.
  pose proof (handle_line_weak cfg wr line s) as H. rewrite E in H. destruct H as (_ & _ & evs & T & L).
  rewrite T in Ht. apply app_inv_head in Ht. subst evs.
  pose proof (line_replay cfg _ _ _ L) as R. apply line_events_handle in L.
  destruct L as (u0 & m0 & ws & ws' & -> & -> & _ & _). rewrite <- R. rewrite fold_left_app. cbn [fold_left tx_step].
  clear. generalize (@None mail_meta) as tx. induction ws'; intros; cbn; auto.
Qed.
Print Assumptions C34_closed_after_mail.
Example C34_example : exists c' u' a, refused test_config [] tt None (Mail (email_of "bad@quux.example.org") [])
  [ONewMail; OFrom tt a (Reject POLICY_REASON (s2b "User 'bad' banned")) u' a] None (POLICY_REASON, s2b "User 'bad' banned")
  /\ c' = @nil (option email * list email * bytes).
Proof. do 3 eexists. split; [|reflexivity]. eapply rf_mail with (c' := []). vm_compute. reflexivity. Qed.

(** ** C35 *)
Theorem C35_no_panic : forall C U W (cfg : config C U) (wr : writer W) src w c u o s,
  all_replies (fun r => sendable_reply r /\ printable_reply r) cfg -> drain_mail cfg ->
  interact cfg wr src w c u = (o, s) -> o = Ret tt \/ o = WriteErr.
Proof.
  intros C U W cfg wr src w c u o s Hr Hd E.
  pose proof (interact_no_panic cfg wr Hr Hd src w c u) as P. rewrite E in P. cbn [fst] in P.
  destruct (interact_weak _ _ _ _ _ _ _ _ E) as (F & _). destruct o as [[]| | |]; auto; congruence.
Qed.
Print Assumptions C35_no_panic.
(** With a writer that never fails the session ends with success. *)
Theorem C35_success : forall C U W (cfg : config C U) (wr : writer W) src w c u o s,
  all_replies (fun r => sendable_reply r /\ printable_reply r) cfg -> drain_mail cfg -> reliable wr ->
  interact cfg wr src w c u = (o, s) -> o = Ret tt.
Proof.
  intros C U W cfg wr src w c u o s Hr Hd Hw E.
  destruct (C35_no_panic _ _ _ _ _ _ _ _ _ _ _ Hr Hd E) as [->| ->]; [reflexivity|exfalso].
  assert (Hline : forall line (x : @st C U W), fst (handle_line cfg wr line x) <> WriteErr).
  { assert (Hs : forall reply (x : @st C U W), fst (send_reply wr reply x) <> WriteErr)
      by (intros; now apply send_reply_reliable).
    assert (Ha : forall reply (x : @st C U W) m, fst (andthen (send_reply wr reply x) (fun _ y => (Ret tt, set_mail y m))) <> WriteErr).
    { intros reply x m. specialize (Hs reply x). destruct (send_reply wr reply x) as [[[]| | |] y]; cbn in *; congruence. }
    intros line x. unfold handle_line. destruct (command_parse line) as [cmd| | | |]; try apply Hs; [|discriminate].
    destruct cmd; try apply Hs.
    - unfold handle_data_cmd. destruct (st_mail x) as [m|]; [|apply Hs]. cbv zeta. destruct (mm_to m); [apply Ha|].
      destruct (cf_filter_data _ _ _ _) as [[[[|code msg] c1] u1] m']; [|apply Ha].
      set (y := log _ _). specialize (Hs (cf_data_okay cfg (st_cfg y)) y) as Hy.
      destruct (send_reply wr _ y) as [[[]| | |] y1]; cbn [andthen fst] in *; try congruence.
      unfold receive_mail. destruct (run_handler _ _ _ _) as [[[r data] cs] d] eqn:Er.
      destruct (run_handler_total _ _ _ _ _ _ _ _ Er) as (_ & _ & Hne & _).
      destruct r as [[[v c2] u2]| | |]; try discriminate; [|congruence].
      cbv zeta. destruct (ds_was_completed d); [destruct v; apply Hs|discriminate].
    - unfold handle_mail_cmd. destruct (st_mail x); [apply Hs|]. cbv zeta.
      destruct (cf_filter_from _ _ _ _) as [[[[|code msg] c1] u1] f']; [apply Ha|apply Hs].
    - unfold handle_rcpt_cmd. destruct (st_mail x); [|apply Hs].
      destruct (cf_filter_to _ _ _ _ _) as [[[[[|code msg] c1] u1] m'] t']; cbv zeta; apply Hs. }
  assert (Hloop : forall fuel (x : @st C U W), fst (interact_loop cfg wr fuel x) <> WriteErr).
  { induction fuel as [|fuel IH]; intros x; cbn [interact_loop]; [discriminate|].
    destruct (next_crlf_line (st_reader x)) as [[l| | |] p]; try discriminate.
    specialize (Hline l (set_reader x p)). destruct (handle_line cfg wr l (set_reader x p)) as [[[]| | |] y]; cbn [andthen fst] in *; try congruence; apply IH. }
  unfold interact in E.
  pose proof (send_reply_reliable wr (cf_welcome_banner cfg c) (St c u None (prep_new src) w None []) Hw) as P.
  destruct (send_reply wr _ _) as [[[]| | |] y]; cbn [andthen fst] in *; try congruence.
  apply (f_equal fst) in E. now apply Hloop in E.
Qed.
Print Assumptions C35_success.
(** The model's fuel never runs out, for any configuration and writer: every
    session on finitely many incoming bytes ends. *)
Theorem C35_sessions_end : forall C U W (cfg : config C U) (wr : writer W) src w c u,
  fst (interact cfg wr src w c u) <> NoFuel.
Proof.
  intros C U W cfg wr src w c u. destruct (interact cfg wr src w c u) as [o s] eqn:E.
  destruct (interact_weak _ _ _ _ _ _ _ _ E) as (F & _). exact F.
Qed.
Print Assumptions C35_sessions_end.
Example C35_hypotheses : all_replies (fun r => sendable_reply r /\ printable_reply r) test_config
  /\ drain_mail test_config /\ reliable test_writer.
Proof. split; [exact test_replies|]. split; [exact test_drain|]. repeat split. Qed.

(** ** C36 *)
Theorem C36_handler_must_complete : forall C U W (cfg : config C U) (wr : writer W) src w c u o s pre u1 m data v post,
  interact cfg wr src w c u = (o, s) ->
  st_trace s = pre ++ OHandle u1 m data [] v :: post ->
  o = Panic /\ post = [].
Proof.
  intros C U W cfg wr src w c u o s pre u1 m data v post E Ht.
  destruct (interact_weak _ _ _ _ _ _ _ _ E) as (_ & bs & evs & T & R). rewrite T in Ht.
  apply eq_sym, split_mid in Ht. destruct Ht as [(p & X & _)|(p & -> & ->)].
  { exfalso. apply (not_in_writes (OHandle u1 m data [] v) bs); [discriminate|]. rewrite X. apply in_elt. }
  destruct (run_events_handle cfg _ _ _ R p u1 m data [] v post eq_refl) as (_ & _ & _ & _ & _ & _ & _ & _ & H).
  apply H. now left.
Qed.
Print Assumptions C36_handler_must_complete.
(** A handler that accepts at once. *)
Definition lazy_config : config mails unit :=
  default_config test_filter_from test_filter_to (fun c u m => HDone Accept c u) (fun _ => s2b "h").
Lemma last_handle (x : outcome unit * @st mails unit unit) : fst x = Panic ->
  match rev (st_trace (snd x)) with
  | OHandle u m [] [] (Some (Accept, tt)) :: _ => True | _ => False end ->
  exists s pre u1 m, x = (Panic, s) /\ st_trace s = pre ++ OHandle u1 m [] [] (Some (Accept, tt)) :: [].
Proof.
  destruct x as [o s]. cbn [fst snd]. intros -> H.
  destruct (rev (st_trace s)) as [|y l] eqn:E; [destruct H|].
  destruct y as [| | | | |u m [|? ?] [|? ?] [[[|? ?] []]|]]; try (now destruct H).
  apply (f_equal (@rev _)) in E. rewrite rev_involutive in E. cbn in E.
  exists s, (rev l), u, m. auto.
Qed.
Example C36_example : exists s pre u1 m,
  interact lazy_config test_writer
    (src_of [Chunk (ln "MAIL FROM:<>" ++ ln "RCPT TO:<a@b.cd>" ++ ln "DATA" ++ ln "." ++ ln "NOOP")]) tt [] tt = (Panic, s)
  /\ st_trace s = pre ++ OHandle u1 m [] [] (Some (Accept, tt)) :: [].
Proof. apply last_handle; vm_compute; [reflexivity|exact I]. Qed.

(** ** C37 *)
Theorem C37_writer_failure : forall C U W W' (cfg : config C U) (wr : writer W) (good : writer W') src w w' c u s o' s',
  reliable good ->
  interact cfg wr src w c u = (WriteErr, s) -> interact cfg good src w' c u = (o', s') ->
  exists more, st_trace s' = st_trace s ++ more.
Proof.
  intros C U W W' cfg wr good src w w' c u s o' s' (R1 & R2 & R3) E E'.
  assert (S : sim (fun _ _ => True) True eq (interact cfg wr src w c u) (interact cfg good src w' c u)).
  { assert (Hop : forall (x : bool * W) (y : bool * W'), fst y = true -> op_sim (fun _ _ => True) True x y).
    { intros [[|] x] [b y] Hb; cbn in Hb; subst b; [left|right]; cbn; auto. }
    apply sim_interact; auto; try (intros; apply Hop; auto; fail).
    - intros p1 p2 ->. auto.
    - intros p1 p2 ->. auto.
    - intros c0 u0 m p1 p2 ->. destruct (run_handler _ _ _ _) as [[[r data] cs] d]. auto 10. }
  rewrite E, E' in S. destruct S as [[S1 S2]|(_ & _ & S)]; cbn [fst snd] in *.
  - exists []. rewrite app_nil_r. symmetry. apply S2.
  - exact S.
Qed.
Print Assumptions C37_writer_failure.
(** And a writer that does not fail leaves the session unaffected. *)
Theorem C37_otherwise_same : forall C U W W' (cfg : config C U) (wr : writer W) (good : writer W') src w w' c u o s o' s',
  reliable good ->
  interact cfg wr src w c u = (o, s) -> o <> WriteErr -> interact cfg good src w' c u = (o', s') ->
  o' = o /\ st_trace s' = st_trace s.
Proof.
  intros C U W W' cfg wr good src w w' c u o s o' s' (R1 & R2 & R3) E Ho E'.
  assert (S : sim (fun _ _ => True) True eq (interact cfg wr src w c u) (interact cfg good src w' c u)).
  { assert (Hop : forall (x : bool * W) (y : bool * W'), fst y = true -> op_sim (fun _ _ => True) True x y).
    { intros [[|] x] [b y] Hb; cbn in Hb; subst b; [left|right]; cbn; auto. }
    apply sim_interact; auto; try (intros; apply Hop; auto; fail).
    - intros p1 p2 ->. auto.
    - intros p1 p2 ->. auto.
    - intros c0 u0 m p1 p2 ->. destruct (run_handler _ _ _ _) as [[[r data] cs] d]. auto 10. }
  rewrite E, E' in S. destruct S as [[S1 S2]|(_ & S1 & _)]; cbn [fst snd] in *; [|contradiction].
  split; [congruence|]. symmetry. apply S2.
Qed.
Print Assumptions C37_otherwise_same.
(** A writer that fails after [n] items. *)
Definition failing_writer : writer nat :=
  Writer nat (fun n => (true, n)) (fun n _ => match n with O => (false, O) | S n' => (true, n') end) (fun n => (true, n)).
Example C37_example : exists s, interact test_config failing_writer (src_of (map Chunk sample)) 3 [] tt = (WriteErr, s)
  /\ length (st_trace s) = 5.
Proof. eexists. split; vm_compute; reflexivity. Qed.

(** ** C39 *)
Theorem C39_no_polling_after_the_end : forall C U W (cfg : config C U) (wr : writer W) evs w c u o s,
  stops_at_end_mail cfg -> interact cfg wr (src_of evs) w c u = (o, s) ->
  src_over (pr_stream (st_reader s)) = 0
  \/ (src_over (pr_stream (st_reader s)) = 1
      /\ exists pre u1 m text v post, st_trace s = pre ++ OHandle u1 m text [false] v :: post).
Proof.
  intros C U W cfg wr evs w c u o s Hd E.
  pose proof (interact_over cfg wr Hd evs w c u) as P. rewrite E in P. cbn [snd] in P. unfold p_over in P.
  destruct P as [P|[P1 P2]]; [now left|right]. split; [exact P1|].
  apply Exists_exists in P2. destruct P2 as (x & Hx & u1 & m & text & v & ->).
  apply in_split in Hx. destruct Hx as (pre & post & Hx). exists pre, u1, m, text, v, post. exact Hx.
Qed.
Print Assumptions C39_no_polling_after_the_end.
(** The handlers the documentation asks for are among them. *)
Theorem C39_draining_handlers : forall C U (cfg : config C U), drain_mail cfg -> stops_at_end_mail cfg.
Proof. intros C U cfg H c u m. apply drains_stops, H. Qed.
Print Assumptions C39_draining_handlers.
(** So are others: this one polls once, reads one item more, and completes,
    which panics unless the message happens to be over. *)
Definition short_handler : handler mails unit :=
  HPoll (fun r => match r with
    | Ready None => HComplete (fun _ => HDone Accept [] tt)
    | _ => HRead (fun items => match items with [] => false | _ => true end)
             (fun items _ => HComplete (fun _ => HDone Accept [] tt))
    end).
Definition short_config : config mails unit :=
  default_config test_filter_from test_filter_to (fun c u m => short_handler) (fun _ => s2b "h").
Example C39_example : stops_at_end_mail short_config
  /\ fst (interact short_config test_writer
       (src_of [Chunk (ln "MAIL FROM:<>" ++ ln "RCPT TO:<a@b.cd>" ++ ln "DATA" ++ ln "hello"); Pend; Chunk (ln "."); Chunk (ln "NOOP")]) tt [] tt) = Ret tt
  /\ fst (interact short_config test_writer
       (src_of [Chunk (ln "MAIL FROM:<>" ++ ln "RCPT TO:<a@b.cd>" ++ ln "DATA" ++ ln "hello"); Chunk (ln "more"); Chunk (ln ".")]) tt [] tt) = Panic.
Proof.
  split; [|split; vm_compute; reflexivity]. intros c u m. cbn. constructor.
  - intros r Hr. destruct r as [|[b|]]; try congruence; (constructor; intros items; [intros _|]; constructor; intros ok; constructor).
  - constructor. intros ok. constructor.
Qed.
(** The hypothesis is needed: a handler that goes on asking is obeyed. *)
Definition greedy_config : config mails unit :=
  default_config test_filter_from test_filter_to
    (fun c u m => let h := HRead (fun _ => false) in h (fun _ _ => h (fun _ _ => h (fun _ _ => HComplete (fun _ => HDone Accept c u)))))
    (fun _ => s2b "h").
Example C39_hypothesis_needed : exists s,
  interact greedy_config test_writer (src_of [Chunk (ln "MAIL FROM:<>" ++ ln "RCPT TO:<a@b.cd>" ++ ln "DATA" ++ ln "hello")]) tt [] tt
  = (Ret tt, s) /\ src_over (pr_stream (st_reader s)) = 3.
Proof. eexists. split; vm_compute; reflexivity. Qed.
(** The exception does happen: the contract of [Stream] is broken when the
    connection is closed inside DATA. *)
Example C39_witness : exists s,
  interact test_config test_writer (src_of [Chunk (ln "MAIL FROM:<>" ++ ln "RCPT TO:<a@b.cd>" ++ ln "DATA" ++ ln "hello")]) tt [] tt
  = (Ret tt, s) /\ src_over (pr_stream (st_reader s)) = 1.
Proof. eexists. split; vm_compute; reflexivity. Qed.

(** ** C41 *)
Theorem C41_other_lines : forall C U W (cfg : config C U) (wr : writer W) line reply (s : @st C U W) o s',
  st_with s = None ->
  (exists cmd, command_parse line = POk cmd /\ other_command cmd /\ reply = cf_command_unimplemented cfg (st_cfg s))
  \/ ((forall cmd, command_parse line <> POk cmd) /\ reply = cf_command_unrecognized cfg (st_cfg s)) ->
  sendable_reply reply -> handle_line cfg wr line s = (o, s') ->
  (exists ws, st_trace s' = st_trace s ++ map OWrite ws /\ answered reply ws (o = Ret tt))
  /\ st_cfg s' = st_cfg s /\ st_user s' = st_user s /\ st_reader s' = st_reader s /\ st_mail s' = st_mail s.
Proof.
  intros C U W cfg wr line reply s o s' Hw Hc Hr E.
  assert (Hs : send_reply wr reply s = (o, s')).
  { unfold handle_line in E. destruct Hc as [(cmd & Ec & Ho & ->)|[Hn ->]].
    - rewrite Ec in E. destruct cmd; try exact E; destruct Ho.
    - pose proof (C14_always_terminates line) as Ht.
      destruct (command_parse line) as [cmd| | | |]; try exact E; [now destruct (Hn cmd)|congruence]. }
  destruct (send_answered wr reply s o s' Hr Hw Hs) as ((S1 & S2 & S3 & S4) & H). auto.
Qed.
Print Assumptions C41_other_lines.
(** QUIT and RSET are among them: the session goes on and the transaction stays. *)
Example C41_example : command_parse (ln "QUIT") = POk Quit /\ other_command Quit
  /\ command_parse (ln "RSET") = POk Rset /\ other_command Rset.
Proof. repeat split; vm_compute; reflexivity. Qed.
