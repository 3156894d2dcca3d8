(** Property C40: end-to-end delivery.  The client side is the sending half of
    smtp-message ([command_send], [DataSink]), the server is [interact]. *)
From Verif Require Import Bytes Nom SmtpString Message Reply Stream SpecData DataProofs DataLines SinkProofs StreamProofs
  PropData SpecGrammar CommandProofs RoundTrip SpecReply Interact RepoSessions PropGrammar InteractProofs SpecSession
  SpecExchange HandlerProofs SessionProofs TraceProofs ExchangeProofs LawfulProofs SimProofs PropServer SpecE2E.

(** ** Proof *)
Section E2E.
Context {C U : Type}.
Variable cfg : config C U.
Let sess := @sess C U.

Lemma dialogue_line (s : sess) line rest evs s2 : is_line line ->
  dialogue cfg s (line ++ CRLF ++ rest) evs s2 ->
  (exists evs1 s1 tr, reacts cfg s (line ++ CRLF) evs1 s1 /\ dialogue cfg s1 rest tr s2 /\ evs = evs1 ++ tr)
  \/ (exists evs1 c u m text rest' evs2 s1 tr, opens cfg s (line ++ CRLF) evs1 c u m
      /\ transfer rest text rest' /\ delivers cfg c u m text true evs2 s1 /\ dialogue cfg s1 rest' tr s2
      /\ evs = evs1 ++ evs2 ++ tr)
  \/ (exists evs1 c u m text evs2, opens cfg s (line ++ CRLF) evs1 c u m
      /\ interrupted rest text /\ delivers cfg c u m text false evs2 s2 /\ evs = evs1 ++ evs2).
Proof.
  intros Hl D. remember (line ++ CRLF ++ rest) as i eqn:E1.
  destruct D as [s t Ht|s l r e s1 tr s2 Hl' Hr Hd|s l w e c u m text r e' s1 tr s2 Hl' Ho Ht Hd Hd'|s l w e c u m text e' s1 Hl' Ho Ht Hd].
  - exfalso. apply Ht. subst t. now exists line, rest.
  - apply first_crlf_unique in E1; auto. destruct E1 as [-> ->]. left. exists e, s1, tr. auto.
  - apply first_crlf_unique in E1; auto. destruct E1 as [-> ->]. right. left. exists e, c, u, m, text, r, e', s1, tr. auto 10.
  - apply first_crlf_unique in E1; auto. destruct E1 as [-> ->]. right. right. exists e, c, u, m, text, e'. auto 10.
Qed.

Lemma dialogue_send (s : sess) cmd rest evs s2 : wf_command cmd ->
  dialogue cfg s (command_send cmd ++ rest) evs s2 ->
  exists line cmd', is_line line /\ command_parse (line ++ CRLF) = POk cmd' /\ command_eq cmd cmd'
  /\ ((exists evs1 s1 tr, reacts cfg s (line ++ CRLF) evs1 s1 /\ dialogue cfg s1 rest tr s2 /\ evs = evs1 ++ tr)
  \/ (exists evs1 c u m text rest' evs2 s1 tr, opens cfg s (line ++ CRLF) evs1 c u m
      /\ transfer rest text rest' /\ delivers cfg c u m text true evs2 s1 /\ dialogue cfg s1 rest' tr s2
      /\ evs = evs1 ++ evs2 ++ tr)
  \/ (exists evs1 c u m text evs2, opens cfg s (line ++ CRLF) evs1 c u m
      /\ interrupted rest text /\ delivers cfg c u m text false evs2 s2 /\ evs = evs1 ++ evs2)).
Proof.
  intros W D. destruct (C18_wf_command_one_line _ W) as (line & Hl & E).
  destruct (C15_round_trip _ W) as (cmd' & P & Q). rewrite E in *.
  exists line, cmd'. split; [exact Hl|]. split; [exact P|]. split; [exact Q|].
  rewrite <- app_assoc in D. now apply dialogue_line.
Qed.

Lemma opens_data (s : sess) line evs c u m : opens cfg s line evs c u m -> command_parse line = POk Data.
Proof. now intros []. Qed.

Lemma mails_app (a b : list (obs U)) : mails_given (a ++ b) = mails_given a ++ mails_given b.
Proof. apply flat_map_app. Qed.
Lemma items_app (a b : list (obs U)) : written_items (a ++ b) = written_items a ++ written_items b.
Proof. apply flat_map_app. Qed.
Lemma says_items reply (evs : list (obs U)) : says reply evs ->
  full_reply (fst reply) (snd reply) (written_items evs) /\ mails_given evs = [].
Proof.
  intros (ws & H & ->).
  assert (written_items (map (@OWrite U) ws) = ws) as -> by (clear; induction ws as [|x ws IH]; cbn; [reflexivity|now f_equal]).
  split; [exact H|]. clear. induction ws; cbn; auto.
Qed.
Lemma replies_cons (k : C -> N * bytes) ks c w ws :
  full_reply (fst (k c)) (snd (k c)) w -> are_replies ks ws -> are_replies (k :: ks) (w ++ ws).
Proof. intros H (wss & -> & F). exists (w :: wss). split; [reflexivity|]. constructor; eauto. Qed.
Lemma replies_app (ks1 ks2 : list (C -> N * bytes)) ws1 ws2 :
  are_replies ks1 ws1 -> are_replies ks2 ws2 -> are_replies (ks1 ++ ks2) (ws1 ++ ws2).
Proof. intros (a & -> & F) (b & -> & G). exists (a ++ b). rewrite concat_app. split; [reflexivity|]. now apply Forall2_app. Qed.

Hypothesis A : accepting cfg.

Lemma other_parsed cmd cmd' : other_command cmd -> command_eq cmd cmd' -> cmd' = cmd.
Proof. intros H E. destruct E; auto; destruct H. Qed.

Lemma step_other c u tx cmd rest evs s2 : other_command cmd -> wf_command cmd ->
  dialogue cfg (Sess c u tx) (command_send cmd ++ rest) evs s2 ->
  exists w tr, says (cf_command_unimplemented cfg c) w /\ evs = w ++ tr /\ dialogue cfg (Sess c u tx) rest tr s2.
Proof.
  intros Ho W D. destruct (dialogue_send _ _ _ _ _ W D) as (line & cmd' & Hl & P & Q & H).
  apply (other_parsed _ _ Ho) in Q. subst cmd'.
  assert (HD : cmd <> Data) by (intros ->; destruct Ho).
  destruct H as [(e & s1 & tr & R & D' & ->)|[(e & c1 & u1 & m & t & r & e2 & s1 & tr & O & _)|(e & c1 & u1 & m & t & e2 & O & _)]];
    try (apply opens_data in O; congruence).
  inversion R; subst; try (rewrite P in *; match goal with X : POk cmd = POk _ |- _ => injection X as -> end;
    first [now destruct Ho | idtac]); try (now destruct Ho).
  - eauto.
  - exfalso. match goal with X : forall _, _ <> _ |- _ => now apply (X cmd) end.
Qed.

Lemma step_mail c u f ps rest evs s2 : wf_command (Mail f ps) ->
  dialogue cfg (Sess c u None) (command_send (Mail f ps) ++ rest) evs s2 ->
  exists c' u' w tr, says (cf_mail_okay cfg c') w /\ evs = [ONewMail; OFrom u f Accept u' f] ++ w ++ tr
  /\ dialogue cfg (Sess c' u' (Some (Meta f []))) rest tr s2.
Proof.
  intros W D. destruct (dialogue_send _ _ _ _ _ W D) as (line & cmd' & Hl & P & Q & H).
  assert (exists ps', cmd' = Mail f ps') as (ps' & ->) by (inversion Q; subst; eauto).
  destruct H as [(e & s1 & tr & R & D' & ->)|[(e & c1 & u1 & m & t & r & e2 & s1 & tr & O & _)|(e & c1 & u1 & m & t & e2 & O & _)]];
    try (apply opens_data in O; congruence).
  inversion R; subst; match goal with Y : (forall _, command_parse _ <> _) |- _ => idtac | X : command_parse _ = POk _ |- _ => rewrite P in X; first [discriminate X|injection X as <- <-|injection X as <-|clear X] | _ => idtac end.
  - destruct (acc_from _ A (cf_new_mail cfg c) u f) as (c1 & u1 & E).
    match goal with X : cf_filter_from _ _ _ _ = _ |- _ => rewrite E in X; injection X; intros; subst end.
    do 4 eexists. split; [eassumption|]. split; [|eassumption]. rewrite <- !app_assoc. reflexivity.
  - destruct (acc_from _ A (cf_new_mail cfg c) u f) as (c1 & u1 & E). congruence.
  - match goal with X : other_command _ |- _ => destruct X end.
  - exfalso. match goal with X : forall _, _ <> _ |- _ => now apply (X _ P) end.
Qed.

Lemma step_rcpt c u m t ps rest evs s2 : wf_command (Rcpt t ps) ->
  dialogue cfg (Sess c u (Some m)) (command_send (Rcpt t ps) ++ rest) evs s2 ->
  exists c' u' w tr, says (cf_rcpt_okay cfg c') w /\ evs = [OTo u m t Accept u' m t] ++ w ++ tr
  /\ dialogue cfg (Sess c' u' (Some (Meta (mm_from m) (mm_to m ++ [t])))) rest tr s2.
Proof.
  intros W D. destruct (dialogue_send _ _ _ _ _ W D) as (line & cmd' & Hl & P & Q & H).
  assert (exists ps', cmd' = Rcpt t ps') as (ps' & ->) by (inversion Q; subst; eauto).
  destruct H as [(e & s1 & tr & R & D' & ->)|[(e & c1 & u1 & m1 & t1 & r & e2 & s1 & tr & O & _)|(e & c1 & u1 & m1 & t1 & e2 & O & _)]];
    try (apply opens_data in O; congruence).
  inversion R; subst; match goal with Y : (forall _, command_parse _ <> _) |- _ => idtac | X : command_parse _ = POk _ |- _ => rewrite P in X; first [discriminate X|injection X as <- <-|injection X as <-|clear X] | _ => idtac end.
  - destruct (acc_to _ A c u m t) as (c1 & u1 & E).
    match goal with X : cf_filter_to _ _ _ _ _ = _ |- _ => rewrite E in X; injection X; intros; subst end.
    do 4 eexists. split; [eassumption|]. split; [|eassumption]. rewrite <- !app_assoc. reflexivity.
  - destruct (acc_to _ A c u m t) as (c1 & u1 & E). congruence.
  - match goal with X : other_command _ |- _ => destruct X end.
  - exfalso. match goal with X : forall _, _ <> _ |- _ => now apply (X _ P) end.
Qed.

Lemma step_data c u m wire text rest evs s2 : mm_to m <> [] -> transfer wire text rest ->
  dialogue cfg (Sess c u (Some m)) (command_send Data ++ wire) evs s2 ->
  exists c1 u1 w1 c2 u2 w2 tr, says (cf_data_okay cfg c1) w1 /\ says (cf_mail_accepted cfg c2) w2
  /\ evs = ([OFilterData u m Accept u1 m] ++ w1) ++ ([OHandle u1 m text [true] (Some (Accept, u2))] ++ w2) ++ tr
  /\ dialogue cfg (Sess c2 u2 None) rest tr s2.
Proof.
  intros Hm Ht D. destruct (dialogue_send (Sess c u (Some m)) Data _ _ _ I D) as (line & cmd' & Hl & P & Q & H).
  assert (cmd' = Data) as -> by (inversion Q; auto).
  destruct H as [(e & s1 & tr & R & D' & ->)|[(e & c1 & u1 & m1 & t1 & r & e2 & s1 & tr & O & T & Dl & D' & ->)|(e & c1 & u1 & m1 & t1 & e2 & O & T & _)]].
  - exfalso. inversion R; subst; match goal with Y : (forall _, command_parse _ <> _) |- _ => idtac | X : command_parse _ = POk _ |- _ => rewrite P in X; first [discriminate X|injection X as <- <-|injection X as <-|clear X] | _ => idtac end.
    + contradiction.
    + destruct (acc_data _ A c u m) as (c1 & u1 & E). congruence.
    + match goal with X : other_command _ |- _ => destruct X end.
    + match goal with X : forall _, _ <> _ |- _ => now apply (X _ P) end.
  - destruct (C01_transfer_unique _ _ _ _ _ Ht T) as [<- <-]. inversion O; subst.
    destruct (acc_data _ A c u m) as (ca & ua & E).
    match goal with X : cf_filter_data _ _ _ _ = _ |- _ => rewrite E in X; injection X; intros; subst end.
    inversion Dl; subst.
    match goal with X : yields _ _ _ _ |- _ => pose proof (acc_mail _ A _ _ _ _ _ _ _ X); subst d end.
    do 7 eexists. split; [eassumption|]. split; [eassumption|]. split; [|eassumption]. reflexivity.
  - exfalso. apply dec_transfer in Ht. apply dec_interrupted in T. congruence.
Qed.

Lemma step_rcpts tos : forall c u m rest evs s2, Forall (fun t => wf_command (Rcpt (fst t) (snd t))) tos ->
  dialogue cfg (Sess c u (Some m)) (concat (map (fun t => command_send (Rcpt (fst t) (snd t))) tos) ++ rest) evs s2 ->
  exists c' u' pre tr, evs = pre ++ tr /\ mails_given pre = []
  /\ are_replies (map (fun _ => cf_rcpt_okay cfg) tos) (written_items pre)
  /\ dialogue cfg (Sess c' u' (Some (Meta (mm_from m) (mm_to m ++ map fst tos)))) rest tr s2.
Proof.
  induction tos as [|[t q] tos IH]; intros c u m rest evs s2 F D; cbn [map concat app] in *.
  - exists c, u, [], evs. repeat split; auto.
    + exists []. split; [reflexivity|constructor].
    + rewrite app_nil_r. now destruct m.
  - inversion F as [|? ? F1 F2]; subst. rewrite <- app_assoc in D. apply step_rcpt in D; [|exact F1].
    destruct D as (c1 & u1 & w & tr & S & -> & D). destruct (says_items _ _ S) as [S1 S2].
    apply IH in D; [|exact F2]. destruct D as (c2 & u2 & pre & tr2 & -> & M & R & D).
    exists c2, u2, ([OTo u m (fst (t, q)) Accept u1 m (fst (t, q))] ++ w ++ pre), tr2. repeat split.
    + now rewrite <- !app_assoc.
    + rewrite !mails_app, S2, M. reflexivity.
    + rewrite !items_app. cbn [written_items flat_map app]. eapply replies_cons; eauto.
    + cbn [mm_from mm_to fst] in D. rewrite <- app_assoc in D. exact D.
Qed.

Lemma run_job j wire c u rest evs s2 : client_sends j wire ->
  dialogue cfg (Sess c u None) (wire ++ rest) evs s2 ->
  exists c' u' pre tr hs, evs = pre ++ tr /\ delivered [j] hs /\ mails_given pre = hs
  /\ are_replies (replies_to cfg j) (written_items pre)
  /\ dialogue cfg (Sess c' u' None) rest tr s2.
Proof.
  intros Hj D. destruct Hj as [cmd Ho W|f ps tos chunks ok s sent W Ht Hw Hs He].
  - apply step_other in D; auto. destruct D as (w & tr & S & -> & D). destruct (says_items _ _ S) as [S1 S2].
    exists c, u, w, tr, []. repeat split; auto; [constructor; constructor|].
    rewrite <- (app_nil_r (written_items w)). eapply replies_cons; eauto.
    exists []. split; [reflexivity|constructor].
  - rewrite <- !app_assoc in D. apply step_mail in D; [|exact W].
    destruct D as (c1 & u1 & w & tr & S & -> & D). destruct (says_items _ _ S) as [S1 S2].
    apply step_rcpts in D; [|exact Hw]. destruct D as (c2 & u2 & pre & tr2 & -> & M & R & D).
    destruct (encoding_transfer _ _ rest (C06_sink_output_exact _ _ _ _ Hs He)) as (text & Hn & T).
    eapply step_data in D; [|destruct tos; [congruence|discriminate]|exact T].
    destruct D as (c3 & u3 & w1 & c4 & u4 & w2 & tr3 & Sa & Sb & -> & D).
    destruct (says_items _ _ Sa) as [Sa1 Sa2]. destruct (says_items _ _ Sb) as [Sb1 Sb2].
    exists c4, u4, ([ONewMail; OFrom u f Accept u1 f] ++ w ++ pre ++ ([OFilterData u2 (Meta f (map fst tos)) Accept u3 (Meta f (map fst tos))] ++ w1)
      ++ ([OHandle u3 (Meta f (map fst tos)) text [true] (Some (Accept, u4))] ++ w2)), tr3.
    eexists. split; [now rewrite <- !app_assoc|]. split; [eapply dl_mail; [exact Hn|constructor]|].
    split; [rewrite !mails_app, S2, M, Sa2, Sb2; reflexivity|].
    split; [|exact D]. rewrite !items_app. cbn [written_items flat_map app replies_to].
    eapply replies_cons; [exact S1|]. apply replies_app; [exact R|].
    eapply replies_cons; [exact Sa1|]. rewrite <- (app_nil_r (written_items w2)). eapply replies_cons; [exact Sb1|].
    exists []. split; [reflexivity|constructor].
Qed.

Lemma delivered_cons j js h hs : delivered [j] h -> delivered js hs -> delivered (j :: js) (h ++ hs).
Proof. intros H1 H2. inversion H1; subst; match goal with X : delivered [] _ |- _ => inversion X; subst end; now constructor. Qed.

Lemma run_jobs jobs wires : Forall2 client_sends jobs wires -> forall c u evs s2,
  dialogue cfg (Sess c u None) (concat wires) evs s2 ->
  delivered jobs (mails_given evs) /\ are_replies (flat_map (replies_to cfg) jobs) (written_items evs)
  /\ se_tx s2 = None.
Proof.
  induction 1 as [|j w jobs wires Hj _ IH]; intros c u evs s2 D; cbn [concat] in D.
  - apply dialogue_nil in D. destruct D as [-> ->]. repeat split; [constructor|]. exists []. split; [reflexivity|constructor].
  - eapply run_job in D; [|exact Hj]. destruct D as (c' & u' & pre & tr & hs & -> & M1 & M2 & R & D).
    apply IH in D. destruct D as (D1 & D2 & D3). rewrite mails_app, items_app, M2. cbn [flat_map].
    repeat split; auto; [now apply delivered_cons|now apply replies_app].
Qed.
End E2E.

Theorem C40_delivery : forall C U W (cfg : config C U) (wr : writer W) jobs wires evs w c u o s,
  accepting cfg -> drain_mail cfg -> all_replies (fun r => sendable_reply r /\ printable_reply r) cfg -> reliable wr ->
  Forall2 client_sends jobs wires -> carries evs (concat wires) ->
  interact cfg wr (src_of evs) w c u = (o, s) ->
  o = Ret tt /\ delivered jobs (mails_given (st_trace s))
  /\ are_replies (cf_welcome_banner cfg :: flat_map (replies_to cfg) jobs) (written_items (st_trace s))
  /\ st_mail s = None.
Proof.
  intros C U W cfg wr jobs wires evs w c u o s A Hd Hr Hw Hj Hc E.
  assert (o = Ret tt) as -> by (eapply C35_success; eauto). split; [reflexivity|].
  destruct (C33_session_is_the_dialogue _ _ _ _ _ _ _ _ _ _ (all_replies_impl cfg _ _ (fun r H => proj1 H) Hr) Hd E)
    as (banner & tr & -> & B & D & _).
  change (src_bytes (src_of evs)) with (concat (map ev_bytes evs)) in D. unfold carries in Hc. rewrite Hc in D.
  destruct (run_jobs cfg A _ _ Hj _ _ _ _ D) as (R1 & R2 & R3). destruct (says_items _ _ B) as [B1 B2].
  rewrite mails_app, items_app, B2. repeat split; auto. eapply replies_cons; eauto.
Qed.
Print Assumptions C40_delivery.


(** ** C47: the connection is cut anywhere *)
Section Cut.
Context {C U : Type}.
Variable cfg : config C U.

Lemma dialogue_is_line (s : @sess C U) p evs s2 : is_line p -> dialogue cfg s p evs s2 -> evs = [] /\ s2 = s.
Proof. intros H D. destruct D; auto; exfalso; apply H; unfold contains; eauto. Qed.

Lemma cut_line p lost line rest : is_line line -> p ++ lost = line ++ CRLF ++ rest ->
  is_line p \/ exists p', p = line ++ CRLF ++ p' /\ p' ++ lost = rest.
Proof.
  intros Hl E. pose proof (find_sub_spec p) as H. destruct (find_sub CRLF p) as [pos|]; [|now left].
  destruct H as (a & b & -> & _ & Ha). right. rewrite <- !app_assoc in E.
  apply first_crlf_unique in E; auto. destruct E as [-> <-]. eauto.
Qed.
Lemma cut_command p lost cmd rest : wf_command cmd -> p ++ lost = command_send cmd ++ rest ->
  is_line p \/ exists p', p = command_send cmd ++ p' /\ p' ++ lost = rest.
Proof.
  intros W E. destruct (C18_wf_command_one_line _ W) as (line & Hl & Q). rewrite Q in *. rewrite <- app_assoc in E.
  apply cut_line in E; auto. destruct E as [E|(p' & -> & E)]; [now left|]. right. exists p'. now rewrite <- app_assoc.
Qed.

Hypothesis A : accepting cfg.

Lemma cut_rcpts tos : forall c u m p lost rest evs s2, Forall (fun t => wf_command (Rcpt (fst t) (snd t))) tos ->
  p ++ lost = concat (map (fun t => command_send (Rcpt (fst t) (snd t))) tos) ++ rest ->
  dialogue cfg (Sess c u (Some m)) p evs s2 ->
  (mails_given evs = []) \/
  exists p' c' u' pre tr, p' ++ lost = rest /\ evs = pre ++ tr /\ mails_given pre = []
  /\ p = concat (map (fun t => command_send (Rcpt (fst t) (snd t))) tos) ++ p'
  /\ dialogue cfg (Sess c' u' (Some (Meta (mm_from m) (mm_to m ++ map fst tos)))) p' tr s2.
Proof.
  induction tos as [|t tos IH]; intros c u m p lost rest evs s2 F E D; cbn [map concat app] in *.
  - right. exists p, c, u, [], evs. rewrite app_nil_r. destruct m. auto.
  - inversion F as [|? ? F1 F2]; subst. rewrite <- app_assoc in E.
    destruct (cut_command _ _ _ _ F1 E) as [Hp|(p' & -> & E')].
    + left. destruct (dialogue_is_line _ _ _ _ Hp D) as [-> _]. reflexivity.
    + apply (step_rcpt cfg A) in D; [|exact F1]. destruct D as (c1 & u1 & w & tr & S & -> & D).
      destruct (says_items _ _ S) as [_ S2].
      destruct (IH _ _ _ _ _ _ _ _ F2 E' D) as [H|(p2 & c2 & u2 & pre & tr2 & H1 & -> & H3 & -> & D2)].
      * left. rewrite !mails_app, S2, H. reflexivity.
      * right. exists p2, c2, u2, ([OTo u m (fst t) Accept u1 m (fst t)] ++ w ++ pre), tr2.
        split; [exact H1|]. split; [now rewrite <- !app_assoc|]. split; [rewrite !mails_app, S2, H3; reflexivity|].
        split; [now rewrite <- app_assoc|]. cbn [mm_from mm_to] in D2. rewrite <- app_assoc in D2. exact D2.
Qed.


Lemma cut_job j wire p lost c u evs s2 : client_sends j wire -> p ++ lost = wire -> lost <> [] ->
  dialogue cfg (Sess c u None) p evs s2 -> cut_mail j (mails_given evs).
Proof.
  intros Hj E Hlost D. destruct Hj as [cmd Ho W|f ps tos chunks ok s sent W Ht Hw Hs He].
  - rewrite <- (app_nil_r (command_send cmd)) in E. destruct (cut_command _ _ _ _ W E) as [Hp|(p' & -> & E')].
    + destruct (dialogue_is_line _ _ _ _ Hp D) as [-> _]. constructor.
    + apply app_eq_nil in E'. now destruct E'.
  - destruct (cut_command _ _ _ _ W E) as [Hp|(p1 & -> & E1)].
    { destruct (dialogue_is_line _ _ _ _ Hp D) as [-> _]. constructor. }
    apply (step_mail cfg A) in D; [|exact W]. destruct D as (c1 & u1 & w & tr & S & -> & D).
    destruct (says_items _ _ S) as [_ S2].
    destruct (cut_rcpts _ _ _ _ _ _ _ _ _ Hw E1 D) as [H|(p2 & c2 & u2 & pre & tr2 & E2 & -> & M & -> & D2)].
    { rewrite !mails_app, S2, H. constructor. }
    destruct (cut_command _ _ Data _ I E2) as [Hp|(p3 & -> & E3)].
    { destruct (dialogue_is_line _ _ _ _ Hp D2) as [-> _]. rewrite !mails_app, S2, M. constructor. }
    cbn [app mm_to mm_from] in D2.
    destruct (encoding_transfer _ _ [] (C06_sink_output_exact _ _ _ _ Hs He)) as (text & Hn & T).
    rewrite app_nil_r in T. apply dec_transfer in T. rewrite <- E3 in T.
    destruct (dec_strict_prefix p3 lost text [] T) as (o1 & o2 & Hd & ->).
    { destruct lost; [congruence|cbn; lia]. }
    destruct (dialogue_send cfg _ Data _ _ _ I D2) as (line & cmd' & Hl & P & Q & H).
    assert (cmd' = Data) as -> by (inversion Q; auto).
    destruct H as [(e & s1 & tr & R & D' & ->)|[(e & c3 & u3 & m1 & t1 & r & e2 & s1 & tr & O & T' & _)|(e & c3 & u3 & m1 & t1 & e2 & O & T' & Dl & ->)]].
    + exfalso. inversion R; subst; match goal with Y : (forall _, command_parse _ <> _) |- _ => idtac | X : command_parse _ = POk _ |- _ => rewrite P in X; first [discriminate X|injection X as <- <-|injection X as <-|clear X] | _ => idtac end.
      * cbn in *. destruct tos; [congruence|discriminate].
      * destruct (acc_data _ A c2 u2 (Meta f (map fst tos))) as (c4 & u4 & E4). congruence.
      * match goal with X : other_command _ |- _ => destruct X end.
      * match goal with X : forall _, _ <> _ |- _ => now apply (X _ P) end.
    + exfalso. apply dec_transfer in T'. congruence.
    + apply dec_interrupted in T'. rewrite Hd in T'. injection T' as <-. inversion O; subst.
      destruct (acc_data _ A c2 u2 (Meta f (map fst tos))) as (c4 & u4 & E4).
      match goal with X : cf_filter_data _ _ _ _ = _ |- _ => rewrite E4 in X; injection X; intros; subst end.
      inversion Dl; subst.
      repeat match goal with X : says _ ?w |- _ => apply says_items in X; destruct X as [_ X] end.
      rewrite !mails_app.
      repeat match goal with X : mails_given ?w = [] |- _ => rewrite X end. eapply cm_part; exact Hn.
Qed.

Lemma cut_jobs jobs wires : Forall2 client_sends jobs wires -> forall c u sent lost evs s2,
  concat wires = sent ++ lost -> dialogue cfg (Sess c u None) sent evs s2 ->
  (delivered jobs (mails_given evs) /\ lost = [])
  \/ exists js1 j js2 ws1 w ws2 hs tail, jobs = js1 ++ j :: js2 /\ wires = ws1 ++ w :: ws2 /\ length ws1 = length js1
      /\ (exists p q, sent = concat ws1 ++ p /\ w = p ++ q /\ q <> [])
      /\ delivered js1 hs /\ cut_mail j tail /\ mails_given evs = hs ++ tail.
Proof.
  induction 1 as [|j w jobs wires Hj Hjs IH]; intros c u sent lost evs s2 E D; cbn [concat] in E.
  - symmetry in E. apply app_eq_nil in E. destruct E as [-> ->]. apply dialogue_nil in D. destruct D as [-> _].
    left. split; [constructor|reflexivity].
  - assert (K : (exists q, w = sent ++ q /\ q <> []) \/ exists p, sent = w ++ p /\ concat wires = p ++ lost).
    { clear -E. revert sent E. induction w as [|x w IH]; intros sent E.
      - right. exists sent. auto.
      - destruct sent as [|y sent]; [left; exists (x :: w); split; [reflexivity|discriminate]|].
        injection E as -> E. destruct (IH _ E) as [(q & -> & Hq)|(p & -> & Hp)]; [left; exists q; auto|right; exists p; auto]. }
    destruct K as [(q & -> & Hq)|(p & -> & Hp)].
    + right. exists [], j, jobs, [], (sent ++ q), wires, [], (mails_given evs). split; [reflexivity|].
      split; [reflexivity|]. split; [reflexivity|]. split; [exists sent, q; auto|]. split; [constructor|].
      split; [|reflexivity]. eapply cut_job; eauto.
    + eapply (run_job cfg A) in D; [|exact Hj]. destruct D as (c' & u' & pre & tr & hs & -> & M1 & M2 & _ & D).
      destruct (IH _ _ _ _ _ _ Hp D) as [[H1 H2]|(js1 & j' & js2 & ws1 & w' & ws2 & hs' & tail & -> & -> & H2 & (p' & q & -> & -> & Hq) & H4 & H5 & H6)].
      * left. rewrite mails_app, M2. split; [now apply delivered_cons|exact H2].
      * right. exists (j :: js1), j', js2, (w :: ws1), (p' ++ q), ws2, (hs ++ hs'), tail.
        split; [reflexivity|]. split; [reflexivity|]. split; [cbn; congruence|].
        split; [exists p', q; cbn [concat]; rewrite <- app_assoc; auto|].
        split; [now apply delivered_cons|]. split; [exact H5|]. now rewrite mails_app, M2, H6, app_assoc.
Qed.
End Cut.

(** Whatever part of the client's bytes arrives, the mails reported complete are
    those sent completely, in order; of the one being sent the server gets at
    most a part, reported incomplete. *)
Theorem C47_cut_anywhere : forall C U W (cfg : config C U) (wr : writer W) jobs wires sent lost evs w c u o s,
  accepting cfg -> drain_mail cfg -> all_replies (fun r => sendable_reply r /\ printable_reply r) cfg -> reliable wr ->
  Forall2 client_sends jobs wires -> concat wires = sent ++ lost -> carries evs sent ->
  interact cfg wr (src_of evs) w c u = (o, s) ->
  o = Ret tt /\
  ((delivered jobs (mails_given (st_trace s)) /\ lost = [])
   \/ exists js1 j js2 ws1 wire ws2 hs tail, jobs = js1 ++ j :: js2 /\ wires = ws1 ++ wire :: ws2 /\ length ws1 = length js1
      /\ (exists p q, sent = concat ws1 ++ p /\ wire = p ++ q /\ q <> [])
      /\ delivered js1 hs /\ cut_mail j tail /\ mails_given (st_trace s) = hs ++ tail).
Proof.
  intros C U W cfg wr jobs wires sent lost evs w c u o s A Hd Hr Hw Hj Hl Hc E.
  assert (o = Ret tt) as -> by (eapply C35_success; eauto). split; [reflexivity|].
  destruct (C33_session_is_the_dialogue _ _ _ _ _ _ _ _ _ _ (all_replies_impl cfg _ _ (fun r H => proj1 H) Hr) Hd E)
    as (banner & tr & -> & B & D & _).
  change (src_bytes (src_of evs)) with (concat (map ev_bytes evs)) in D. unfold carries in Hc. rewrite Hc in D.
  destruct (says_items _ _ B) as [B1 B2]. rewrite mails_app, B2.
  exact (cut_jobs cfg A _ _ Hj _ _ _ _ _ _ Hl D).
Qed.
Print Assumptions C47_cut_anywhere.

(** A configuration, a client and packets that meet the hypotheses. *)
Definition open_handle (c : mails) (u : unit) (m : mail_meta) : handler mails unit :=
  HRead (fun _ => false) (fun items _ => HComplete (fun ok =>
    if ok then HDone Accept (c ++ [(mm_from m, mm_to m, concat items)]) u
    else HDone (Reject BAD_SEQUENCE (s2b "Closed")) c u)).
Definition open_config : config mails unit :=
  default_config (fun c u a => (Accept, c, u, a)) (fun c u m a => (Accept, c, u, m, a)) open_handle (fun _ => s2b "host").
Lemma open_accepting : accepting open_config.
Proof.
  constructor; intros; cbn; eauto.
  match goal with X : yields _ _ _ _ |- _ => inversion X; subst end.
  - discriminate.
  - match goal with X : _ = HComplete _ |- _ => injection X as <- end.
    match goal with X : _ = HDone _ _ _ |- _ => injection X as <- _ _ end. reflexivity.
Qed.
Lemma open_drain : drain_mail open_config.
Proof.
  intros c u m. cbn. constructor; [discriminate|]. intros items. eexists. split; [reflexivity|].
  intros [|]; do 3 eexists; reflexivity.
Qed.
Lemma open_replies : all_replies (fun r => sendable_reply r /\ printable_reply r) open_config.
Proof.
  assert (Hg : forall r, (fst r <? 1000)%N && (N.of_nat (length (snd r)) + 506 <=? 18446744073709551616)%N
    && forallb (fun c => (c =? 9)%N || ((32 <=? c)%N && (c <=? 126)%N)) (snd r) = true -> good_reply r).
  { intros r H. rewrite !andb_true_iff, N.ltb_lt, N.leb_le in H. destruct H as [[H1 H2] H3].
    split; [split; assumption|]. rewrite forallb_forall in H3. apply Forall_forall. intros x Hx. apply H3 in Hx.
    unfold printable. rewrite orb_true_iff, andb_true_iff, N.eqb_eq, !N.leb_le in Hx. exact Hx. }
  constructor; intros; try exact I; try (apply Hg; vm_compute; reflexivity).
  cbn. intros items over [|]; [exact I|apply Hg; vm_compute; reflexivity].
Qed.
Definition an_email (s : string) : email := match email_of s with Some e => e | None => Email [] None end.
Definition two_jobs : list job :=
  [JOther (Ehlo (Host (s2b "client.example")));
   JMail (Some (an_email "a@b.cd")) [] [(an_email "c@d.ef", []); (an_email "g", [])] [s2b "he"; s2b "llo" ++ CRLF ++ [DOT]];
   JOther Rset; JMail None [] [(an_email "c@d.ef", [])] []; JOther Quit].
Lemma wf_by_parsing c : command_parse (command_send c) = POk c -> wf_command c.
Proof. intros H. exact (proj1 (C15_parsed_commands_resend _ _ H)). Qed.
Lemma two_wires : exists wires, Forall2 client_sends two_jobs wires
    /\ wires = [s2b "EHLO client.example" ++ CRLF;
         s2b "MAIL FROM:<a@b.cd>" ++ CRLF ++ s2b "RCPT TO:<c@d.ef>" ++ CRLF ++ s2b "RCPT TO:<g>" ++ CRLF ++ s2b "DATA" ++ CRLF
           ++ s2b "hello" ++ CRLF ++ s2b ".." ++ CRLF ++ s2b "." ++ CRLF;
         s2b "RSET" ++ CRLF;
         s2b "MAIL FROM:<>" ++ CRLF ++ s2b "RCPT TO:<c@d.ef>" ++ CRLF ++ s2b "DATA" ++ CRLF ++ s2b "." ++ CRLF;
         s2b "QUIT" ++ CRLF].
Proof.
  eexists. split.
    - unfold two_jobs. constructor; [apply cs_other; [exact I|apply wf_by_parsing; vm_compute; reflexivity]|].
      constructor; [eapply (cs_mail _ _ _ _ sink_accept);
        [apply wf_by_parsing; vm_compute; reflexivity|discriminate
        |repeat (apply Forall_cons; [apply wf_by_parsing; vm_compute; reflexivity|]); apply Forall_nil
        |vm_compute; reflexivity|vm_compute; reflexivity]|].
      constructor; [apply cs_other; exact I|].
      constructor; [eapply (cs_mail _ _ _ _ sink_accept);
        [apply wf_by_parsing; vm_compute; reflexivity|discriminate
        |repeat (apply Forall_cons; [apply wf_by_parsing; vm_compute; reflexivity|]); apply Forall_nil
        |vm_compute; reflexivity|vm_compute; reflexivity]|].
      constructor; [apply cs_other; exact I|]. constructor.
    - vm_compute. reflexivity.
Qed.
Example C40_example : exists wires evs, Forall2 client_sends two_jobs wires /\ carries evs (concat wires)
  /\ accepting open_config /\ drain_mail open_config
  /\ all_replies (fun r => sendable_reply r /\ printable_reply r) open_config /\ reliable test_writer
  /\ mails_given (st_trace (snd (interact open_config test_writer (src_of evs) tt [] tt)))
     = [(Meta (Some (an_email "a@b.cd")) [an_email "c@d.ef"; an_email "g"], s2b "hello" ++ CRLF ++ [DOT] ++ CRLF, [true], Some Accept);
        (Meta None [an_email "c@d.ef"], [], [true], Some Accept)].
Proof.
  pose proof two_wires as F.
  destruct F as (wires & F & E). exists wires, (flat_map (fun b => [Pend; Chunk [b]]) (concat wires)).
  split; [exact F|]. split; [unfold carries; rewrite E; vm_compute; reflexivity|].
  split; [exact open_accepting|]. split; [exact open_drain|]. split; [exact open_replies|].
  split; [repeat split|]. rewrite E. vm_compute. reflexivity.
Qed.

(** The same client, cut inside the text of its first mail. *)
Example C47_example : exists wires sent lost, Forall2 client_sends two_jobs wires /\ concat wires = sent ++ lost /\ lost <> []
  /\ mails_given (st_trace (snd (interact open_config test_writer (src_of [Chunk sent]) tt [] tt)))
     = [(Meta (Some (an_email "a@b.cd")) [an_email "c@d.ef"; an_email "g"], s2b "hello" ++ [CR], [false], Some (Reject BAD_SEQUENCE (s2b "Closed")))].
Proof.
  destruct two_wires as (wires & F & E). exists wires, (firstn 84 (concat wires)), (skipn 84 (concat wires)).
  split; [exact F|]. split; [symmetry; apply firstn_skipn|]. rewrite E. split; vm_compute; [discriminate|reflexivity].
Qed.
