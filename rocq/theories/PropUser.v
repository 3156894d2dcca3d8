(** Property C70: sessions with any user code - futures that suspend, change their
    state while they do, never finish or panic - and any sink. *)
From Verif Require Import Bytes Nom SmtpString Ip Message Reply Stream Interact SinkFuture RepoSessions SpecData SpecReply SpecSession SpecExchange
  LawfulProofs PropServer SpecE2E PropE2E SpecPrompt Async AsyncUser SpecAsync SpecUser HandlerProofs AsyncProofs AsyncContract PropAsync PropAsyncSink AsyncUserProofs AsyncUserFlush.
Notation replay := SpecAsync.replay.
Notation polled n ac ks incoming k0 c u := (after_polls n (interact_any ac (any_sink (recording ks))) (world_new incoming (k0, []) c u [])).

Section From.
Context {C U K : Type}.
Variable ac : aconfig C U.
Variable ks : @ksink K.
Variable allowed : answer C U -> Prop.
Notation cfg' := (answering allowed (ac_replies ac)).
Lemma from_R incoming k0 c u n r (x : @world C U (K * list call)) :
  Rw ac allowed (fun _ => True) (interact_any ac (any_sink (recording ks)))
    (fun s => andthen (send_reply replay (cf_welcome_banner cfg' (st_cfg s)) s) (fun _ s => interact_loop cfg' replay (S (prep_size (st_reader s))) s)) ->
  polled n ac ks incoming k0 c u = (r, x) ->
  writes (trace_of x) = sent (calls x)
  /\ exists answers : list {a : answer C U | allowed a}, are_answers_of ac c u r x (map (@proj1_sig _ _) answers) /\ forall more morew,
     matches ac r x more morew (interact cfg' replay incoming (final_answers (calls x) ++ morew) (c, answers ++ more) u).
Proof.
  intros [_ HR] E. destruct (HR _ _ _ _ I E) as (ua & rec & t & [S1 S2 S3] & T & H). cbn in S1, S2.
  unfold are_answers_of, trace_of. rewrite S1, S2. split; [exact S3|]. exists ua. split; [exact T|]. intros more morew. specialize (H more morew).
  change (interact cfg' replay incoming (final_answers rec ++ morew) (c, ua ++ more) u)
    with ((fun s => andthen (send_reply replay (cf_welcome_banner cfg' (st_cfg s)) s) (fun _ s => interact_loop cfg' replay (S (prep_size (st_reader s))) s))
      (enc allowed (w_st (world_new incoming (k0, @nil call) c u [])) (ua ++ more) (final_answers rec ++ morew))).
  cbv beta in H |- *. revert H. generalize (andthen (send_reply replay (cf_welcome_banner cfg'
    (st_cfg (enc allowed (w_st (world_new incoming (k0, @nil call) c u [])) (ua ++ more) (final_answers rec ++ morew))))
    (enc allowed (w_st (world_new incoming (k0, @nil call) c u [])) (ua ++ more) (final_answers rec ++ morew)))
    (fun _ s => interact_loop cfg' replay (S (prep_size (st_reader s))) s)).
  intros y H. unfold matches, is_beginning, trace_of. destruct r as [[[]| | |]|p]; cbn [agrees] in H; try (rewrite H; now repeat split); exact H.
Qed.
End From.

(** ** C70 *)
(** Every session with any user code and any sink, polled any number of times, is
    one of Interact.v, or a beginning of one, with a configuration that gives the
    answers of the user code, but at once. *)
Theorem C70_any_user_code : forall C U K (ac : aconfig C U) (ks : @ksink K) incoming k0 c u n r x,
  polled n ac ks incoming k0 c u = (r, x) ->
  writes (trace_of x) = sent (calls x)
  /\ exists answers : list {a : answer C U | any_answer a}, are_answers_of ac c u r x (map (@proj1_sig _ _) answers) /\ forall more morew,
     matches ac r x more morew
       (interact (answering any_answer (ac_replies ac)) replay incoming (final_answers (calls x) ++ morew) (c, answers ++ more) u).
Proof.
  intros C U K ac ks incoming k0 c u n r x E. refine (from_R ac ks any_answer _ _ _ _ _ _ _ _ E).
  assert (H : forall X (f : ufuture (C * U * X) decision) mk, exists J, changes any_answer f J mk).
  { intros X f mk. exists (fun _ _ => True). split; [intros; exact I|]. intros v0 l c0 u0 v r0 l' c' u' v' _ _. split; [exact I|]. intros d _. now exists (fun _ => v'). }
  apply R_interact; [intros; exact I|apply H..|]. intros m. apply R_handle_any. intros; exact I.
Qed.
Print Assumptions C70_any_user_code.
(** If the user code keeps the rules, so does that configuration. *)
Lemma answering_replies {C U} P (allowed : answer C U -> Prop) (replies : config C U) : (forall a, allowed a -> lawful_answer P a) ->
  ok_replies P replies -> all_replies P (answering allowed replies).
Proof.
  intros Hl H. split; intros c; try (specialize (H (fst c)); rewrite !Forall_cons_iff in H; tauto).
  - intros u0 f. cbn. destruct c as [c [|[a L] l]]; [exact I|]. cbn. destruct a; try exact I. exact (Hl _ L).
  - intros u0 m0 t. cbn. destruct c as [c [|[a L] l]]; [exact I|]. cbn. destruct a; try exact I. exact (Hl _ L).
  - intros u0 m0. cbn. destruct c as [c [|[a L] l]]; [exact I|]. cbn. destruct a; try exact I. exact (Hl _ L).
  - intros u0 m0. cbn. destruct c as [c [|[a L] l]]; [cbn; intros; exact I|]. cbn. destruct a; try (cbn; intros; exact I). destruct (Hl _ L) as [-> L']. cbn. intros _ _ ok. apply L'.
Qed.
Lemma answering_drains {C U} P (allowed : answer C U -> Prop) (replies : config C U) : (forall a, allowed a -> lawful_answer P a) ->
  drain_mail (answering allowed replies).
Proof.
  intros Hl.
  assert (D : forall v (c : C * list {a | allowed a}) (u : U), drains (use_stream [UDrain; UComplete] [] (fun cs => HDone (v cs) c u))).
  { intros v c u. constructor; [discriminate|]. intros items. eexists. split; [reflexivity|]. intros ok. now exists (v [ok]), c, u. }
  intros [c [|[a L] l]] u0 m0; [apply (D (fun _ => Accept))|]. destruct a; try apply (D (fun _ => Accept)). destruct (Hl _ L) as [-> _]. apply D.
Qed.
Lemma R_lawful {C U K} P (ac : aconfig C U) (ks : @ksink K) : lawful P ac ->
  Rw ac (lawful_answer P) (fun _ => True) (interact_any ac (any_sink (recording ks)))
    (fun s => andthen (send_reply replay (cf_welcome_banner (answering (lawful_answer P) (ac_replies ac)) (st_cfg s)) s)
       (fun _ s => interact_loop (answering (lawful_answer P) (ac_replies ac)) replay (S (prep_size (st_reader s))) s)).
Proof.
  intros L.
  assert (H : forall X (f : ufuture (C * U * X) decision) mk, future_refuses P f -> (forall d c u g, on_refusal P d -> lawful_answer P (mk d c u g)) ->
    exists J, changes (lawful_answer P) f J mk).
  { intros X f mk Hf Hm. exists (fun _ _ => True). split; [intros; exact I|]. intros v0 l c0 u0 v r0 l' c' u' v' _ E. split; [exact I|]. intros d ->.
    exists (fun _ => v'). split; [reflexivity|]. apply Hm, (Hf _ _ _ _ _ E). }
  apply R_interact.
  - intros; exact I.
  - apply H; [apply (la_from _ _ L)|auto].
  - apply H; [apply (la_to _ _ L)|auto].
  - apply H; [apply (la_data _ _ L)|auto].
  - intros m. apply (R_handle_drains ac _ (fun _ => on_refusal P) m (la_handle _ _ L m)); [intros; exact I|]. intros v c0 u0 Hv. now split.
Qed.
Theorem C70_lawful_user_code : forall C U K (P : N * bytes -> Prop) (ac : aconfig C U) (ks : @ksink K) incoming k0 c u n r x,
  lawful P ac ->
  polled n ac ks incoming k0 c u = (r, x) ->
  exists (cfg : config (C * list {a : answer C U | lawful_answer P a}) U) answers, all_replies P cfg /\ drain_mail cfg
  /\ (forall cl, cf_welcome_banner cfg cl = cf_welcome_banner (ac_replies ac) (fst cl))
  /\ are_answers_of ac c u r x (map (@proj1_sig _ _) answers)
  /\ forall more morew, matches ac r x more morew (interact cfg replay incoming (final_answers (calls x) ++ morew) (c, answers ++ more) u).
Proof.
  intros C U K P ac ks incoming k0 c u n r x L E.
  destruct (from_R ac ks (lawful_answer P) incoming k0 c u n r x (R_lawful P ac ks L) E) as [_ (answers & HT & H)].
  exists (answering (lawful_answer P) (ac_replies ac)), answers. split; [apply answering_replies, (la_replies _ _ L); auto|]. split; [now apply (answering_drains P)|].
  split; [reflexivity|]. split; [exact HT|exact H].
Qed.
Print Assumptions C70_lawful_user_code.

(** ** What follows *)
(** Whatever can be said of what there is to see of all sessions of Interact.v, and
    of their beginnings, holds at every moment of every session. *)
Theorem C70_transfer : forall (Q : forall U, list (obs U) -> Prop),
  (forall U pre post, Q U (pre ++ post) -> Q U pre) ->
  (forall C U W (cfg : config C U) (wr : writer W) incoming w c u, Q U (st_trace (snd (interact cfg wr incoming w c u)))) ->
  forall C U K (ac : aconfig C U) (ks : @ksink K) incoming k0 c u n r x,
    polled n ac ks incoming k0 c u = (r, x) -> Q U (trace_of x).
Proof.
  intros Q Hp Hq C U K ac ks incoming k0 c u n r x E. destruct (C70_any_user_code _ _ _ _ _ _ _ _ _ _ _ _ E) as [_ (answers & _ & H)].
  specialize (H [] []). specialize (Hq _ _ _ (answering any_answer (ac_replies ac)) replay incoming (final_answers (calls x) ++ []) (c, answers ++ []) u).
  set (y := interact _ _ _ _ _ _) in *.
  assert (B : is_beginning (trace_of x) (snd y)).
  { destruct r as [[[]| | |]|p]; cbn in H; try exact H.
    - exists []. rewrite app_nil_r. apply H.
    - exists []. rewrite app_nil_r. apply H.
    - destruct H as [[_ H]|[_ H]]; [|exact H]. exists []. now rewrite app_nil_r.
    - exists []. rewrite app_nil_r. apply H. }
  destruct B as [rest B]. rewrite B in Hq. exact (Hp _ _ _ Hq).
Qed.
(** The envelope given to [handle_mail] (C31). *)
Theorem C70_envelope : forall C U K (ac : aconfig C U) (ks : @ksink K) incoming k0 c u n r x pre u1 m data cs v post,
  polled n ac ks incoming k0 c u = (r, x) ->
  trace_of x = pre ++ OHandle u1 m data cs v :: post ->
  exists hist u0 m0 ws, pre = hist ++ OFilterData u0 m0 Accept u1 m :: map OWrite ws
  /\ mm_to m0 <> [] /\ SpecExchange.replay hist = Some m0.
Proof.
  intros C U K ac ks incoming k0 c u n r x pre u1 m data cs v post E. revert pre u1 m data cs v post.
  refine (C70_transfer (fun U tr => forall pre u1 m data cs v post, tr = pre ++ OHandle u1 m data cs v :: post ->
    exists hist u0 m0 ws, pre = hist ++ OFilterData u0 m0 Accept u1 m :: map OWrite ws
    /\ mm_to m0 <> [] /\ SpecExchange.replay hist = Some m0) _ _ C U K ac ks incoming k0 c u n r x E).
  - intros U0 p q H pre u1 m data cs v post ->. apply (H pre u1 m data cs v (post ++ q)). now rewrite <- app_assoc.
  - intros C0 U0 W cfg wr inc w c1 u2 pre u1 m data cs v post Et.
    destruct (C31_envelope_any_filters C0 U0 W cfg wr inc w c1 u2 _ _ pre u1 m data cs v post (surjective_pairing _) Et) as (hist & u0 & m0 & ws & H1 & H2 & H3 & _).
    now exists hist, u0, m0, ws.
Qed.
Print Assumptions C70_envelope.
Lemma matches_beginning {C U K A} (ac : aconfig C U) r (x : @world C U (K * list call)) (more : list A) morew y :
  matches ac r x more morew y -> is_beginning (trace_of x) (snd y).
Proof.
  intros H. destruct r as [[[]| | |]|p]; cbn in H; try exact H.
  - exists []. rewrite app_nil_r. apply H.
  - exists []. rewrite app_nil_r. apply H.
  - destruct H as [[_ H]|[_ H]]; [|exact H]. exists []. now rewrite app_nil_r.
  - exists []. rewrite app_nil_r. apply H.
Qed.
(** If the filters leave the metadata they are shown alone, it is the sender as it
    was accepted and the recipients as they were accepted since. *)
Theorem C70_envelope_kept : forall C U K (ac : aconfig C U) (ks : @ksink K) incoming k0 c u n r x pre u1 m data cs v post,
  keeping_user ac ->
  polled n ac ks incoming k0 c u = (r, x) ->
  trace_of x = pre ++ OHandle u1 m data cs v :: post ->
  exists hist u0 ws, pre = hist ++ OFilterData u0 m Accept u1 m :: map OWrite ws
  /\ mm_to m <> [] /\ open_transaction hist m.
Proof.
  intros C U K ac ks incoming k0 c u n r x pre u1 m data cs v post [Kt Kd] E Et.
  destruct (from_R ac ks keeping_answer incoming k0 c u n r x) as [_ (answers & _ & H)]; [|exact E|].
  - apply R_interact.
    + intros; exact I.
    + exists (fun _ _ => True). split; [intros; exact I|]. intros v0 l c0 u0 v1 r0 l' c' u' v' _ _. split; [exact I|]. intros d _. now exists (fun _ => v').
    + exists (fun v v' => fst v' = fst v). split; [reflexivity|]. intros [m0 t0] l c0 u0 [m1 t1] r0 l' c' u' [m2 t2] Hj Ep. cbn in Hj. subst m1.
      apply Kt in Ep. subst m2. split; [reflexivity|]. intros d _. exists (fun p => (fst p, t2)). now split.
    + exists (fun v v' => v' = v). split; [reflexivity|]. intros v0 l c0 u0 v1 r0 l' c' u' v' -> Ep. apply Kd in Ep. subst v'. split; [reflexivity|].
      intros d _. exists (fun p => p). now split.
    + intros m0. apply R_handle_any. intros; exact I.
  - specialize (H [] []). apply matches_beginning in H. destruct H as [rest H]. rewrite Et, <- app_assoc in H.
    refine (C31_envelope _ _ _ (answering keeping_answer (ac_replies ac)) replay incoming (final_answers (calls x) ++ []) (c, answers ++ []) u _ _ _ _ _ _ _ _ _ _ (surjective_pairing _) H).
    split.
    + intros [c0 [|[a L] l]] u2 m0 t; [reflexivity|]. destruct a; try reflexivity. apply L.
    + intros [c0 [|[a L] l]] u2 m0; [reflexivity|]. destruct a; try reflexivity. apply L.
Qed.
Print Assumptions C70_envelope_kept.
(** A handler that returns without having completed its stream is the last thing to
    see (C36). *)
Theorem C70_handler_must_complete : forall C U K (ac : aconfig C U) (ks : @ksink K) incoming k0 c u n r x pre u1 m data v post,
  polled n ac ks incoming k0 c u = (r, x) ->
  trace_of x = pre ++ OHandle u1 m data [] v :: post ->
  post = [] /\ forall o, r = inl o -> o = Panic.
Proof.
  intros C U K ac ks incoming k0 c u n r x pre u1 m data v post E Et.
  destruct (C70_any_user_code _ _ _ _ _ _ _ _ _ _ _ _ E) as [_ (answers & _ & H)]. specialize (H [] []). unfold matches in H. rewrite Et in H.
  set (y := interact _ _ _ _ _ _) in *. destruct y as [o s] eqn:Ey. subst y. 
  assert (F : forall rest, st_trace s = (pre ++ OHandle u1 m data [] v :: post) ++ rest -> o = Panic /\ post = []).
  { intros rest Er. rewrite <- app_assoc in Er. destruct (C36_handler_must_complete _ _ _ _ _ _ _ _ _ _ _ _ _ _ _ _ _ Ey Er) as [-> Ep].
    split; [reflexivity|]. now apply app_eq_nil in Ep. }
  destruct r as [[[]| | |]|p]; cbn in H.
  - destruct (F [] ltac:(rewrite app_nil_r; apply H)) as [-> _]. destruct H as [H _]. discriminate.
  - destruct (F [] ltac:(rewrite app_nil_r; apply H)) as [-> _]. destruct H as [H _]. discriminate.
  - split; [|now intros o0 [= <-]]. destruct H as [[_ H]|[_ [rest H]]]; [apply (F []); now rewrite app_nil_r|now apply (F rest)].
  - destruct (F [] ltac:(rewrite app_nil_r; apply H)) as [-> _]. destruct H as [H _]. discriminate.
  - destruct H as [rest H]. split; [now apply (F rest)|]. discriminate.
Qed.
Print Assumptions C70_handler_must_complete.
(** The sink is used as its contract demands (C59). *)
Lemma ct_any_user {C U K} (ac : aconfig C U) : ct_usercode (K := K) (any_user ac).
Proof.
  assert (Hf : forall X (f : ufuture (C * U * X) decision) v finish, (forall d v s, still (K := K) s (finish d v s)) -> ct false false (a_filter f v finish)).
  { intros X f v finish Hs. apply (ct_await false false false); [|intros b; apply ct_ret; now right].
    intros l x r l' x' Gx E. unfold op_filter in E. destruct (uf_poll f (fst l) _) as [[[|[d|]] l1] [[c u] v1]]; injection E as <- <- <-; cbn; try exact Gx.
    apply (G_still false (set_cu (w_st x) c u)); [apply Hs|exact Gx]. }
  split.
  - apply (ct_await false false false); [|intros b; apply ct_ret; now right].
    intros l x r l' x' Gx E. unfold op_new_mail in E. destruct (uf_poll (ac_new_mail ac) l _) as [[[|[d|]] l1] c]; injection E as <- <- <-; exact Gx.
  - intros from. apply (ct_bind false false false); [apply ct_read|]. intros u0. apply Hf. now split.
  - intros m to. apply (ct_bind false false false); [apply ct_read|]. intros u0. apply (ct_bind false false false); [apply Hf; now split|]. intros [d [m' to']]. apply ct_ret. now right.
  - intros m. apply (ct_bind false false false); [apply ct_read|]. intros u0. apply Hf. now split.
  - intros m. apply (ct_bind false false false); [apply ct_read|]. intros u0. apply (ct_await false false false); [|intros b; apply ct_ret; now right].
    intros [[[[h t] buf] data] cs] x r l' x' Gx E. unfold op_handle in E. cbv zeta in E.
    destruct (run_hpoll _ _ data cs) as [[[[h' c u|v c u| | |] d] data'] cs']; injection E as <- <- <-; exact Gx.
Qed.
Theorem C70_sink_contract : forall C U K (ac : aconfig C U) (ks : @ksink K) incoming k0 c u n r x,
  polled n ac ks incoming k0 c u = (r, x) ->
  contract (calls x) /\ (r = inl WriteErr <-> In false (final_answers (calls x))).
Proof.
  intros C U K ac ks incoming k0 c u n r x E.
  assert (G0 : G false (w_st (world_new incoming (k0, @nil call) c u []))).
  { split; cbn; [|intros [H|H]; [discriminate|now elim H]]. split; [|intros []].
    split; [intros [|? ?] b ok q Eq; discriminate|]. intros [|? ?] d q Eq; discriminate. }
  pose proof (ct_polls _ n _ _ (ct_future_with (ac_replies ac) ks (any_user ac) (ct_any_user ac)) _ _ _ G0 E) as H.
  destruct r as [[| | |]|]; cbn in H.
  all: try (destruct H as [[H1 H2] _]; split; [exact H1|]; split; [discriminate|]; intros H3; now elim H2).
  destruct H as [H1 H2]. split; [exact H1|]. now split.
Qed.
Print Assumptions C70_sink_contract.
(** User code that keeps the rules: no panic (C35), one reply for each command (C33)
    and the content of every mail (C38). *)
Theorem C70_no_panic : forall C U K (ac : aconfig C U) (ks : @ksink K) incoming k0 c u n o x,
  lawful (fun r => sendable_reply r /\ printable_reply r) ac ->
  polled n ac ks incoming k0 c u = (inl o, x) -> o = Ret tt \/ o = WriteErr.
Proof.
  intros C U K ac ks incoming k0 c u n o x L E.
  destruct (C70_lawful_user_code _ _ _ _ _ _ _ _ _ _ _ _ _ L E) as (cfg & answers & H1 & H2 & _ & _ & H). specialize (H [] []).
  destruct (interact cfg replay incoming (final_answers (calls x) ++ []) (c, answers ++ []) u) as [o' s] eqn:Ey.
  pose proof (C35_no_panic _ _ _ _ _ _ _ _ _ _ _ H1 H2 Ey) as H3.
  destruct o as [[]| | |]; auto; cbn in H.
  - destruct H as [[-> _]|[H _]]; [destruct H3; discriminate|]. elim H. apply (la_safe _ _ L).
  - destruct H as [-> _]. destruct H3; discriminate.
Qed.
Print Assumptions C70_no_panic.
Theorem C70_one_reply_per_command : forall C U K (P : N * bytes -> Prop) (ac : aconfig C U) (ks : @ksink K) incoming k0 c u n x,
  lawful (fun r => sendable_reply r /\ P r) ac ->
  polled n ac ks incoming k0 c u = (inl (Ret tt), x) ->
  exists banner evs xs tail, trace_of x = map OWrite banner ++ evs
  /\ full_reply (fst (cf_welcome_banner (ac_replies ac) c)) (snd (cf_welcome_banner (ac_replies ac) c)) banner
  /\ partition (src_bytes incoming) evs xs tail /\ Forall (replies_ok P) xs /\ Forall content_ok xs.
Proof.
  intros C U K P ac ks incoming k0 c u n x L E.
  destruct (C70_lawful_user_code _ _ _ _ _ _ _ _ _ _ _ _ _ L E) as (cfg & answers & H1 & H2 & Hb & _ & H). specialize (H [] []).
  destruct (interact cfg replay incoming (final_answers (calls x) ++ []) (c, answers ++ []) u) as [o' s] eqn:Ey. cbn in H. destruct H as [-> H].
  destruct (C33_one_reply_per_command _ _ _ _ _ P _ _ _ _ _ (all_replies_impl cfg _ _ (fun r H => proj1 H) H1) (all_replies_impl cfg _ _ (fun r H => proj2 H) H1) H2 Ey)
    as (banner & evs & xs & tail & T1 & T2 & T3). rewrite Hb in T2. cbn [fst] in T2.
  exists banner, evs, xs, tail. split; [|now split]. rewrite <- T1. symmetry. apply H.
Qed.
Print Assumptions C70_one_reply_per_command.
(** User code that accepts everything: what a client sends is delivered (C40), or
    what arrives of it (C47), and answered, up to where the session has come: to its
    end, unless the sink fails. *)
Lemma R_accepting {C U K} P (ac : aconfig C U) (ks : @ksink K) : accepting_user P ac ->
  Rw ac (accepting_answer P) (fun _ => True) (interact_any ac (any_sink (recording ks)))
    (fun s => andthen (send_reply replay (cf_welcome_banner (answering (accepting_answer P) (ac_replies ac)) (st_cfg s)) s)
       (fun _ s => interact_loop (answering (accepting_answer P) (ac_replies ac)) replay (S (prep_size (st_reader s))) s)).
Proof.
  intros L.
  assert (H : forall X (f : ufuture (C * U * X) decision) mk, future_accepts f -> (forall c u g, (forall v, g v = v) -> accepting_answer P (mk Accept c u g)) ->
    exists J, changes (accepting_answer P) f J mk).
  { intros X f mk Hf Hm. exists (fun v v' => v' = v). split; [reflexivity|]. intros v0 l c0 u0 v r0 l' c' u' v' -> E. destruct (Hf _ _ _ _ _ _ _ _ _ E) as [-> Hd].
    split; [reflexivity|]. intros d Er. rewrite (Hd _ Er). exists (fun v => v). split; [reflexivity|]. now apply Hm. }
  apply R_interact.
  - intros; exact I.
  - apply H; [apply (au_from _ _ L)|now split].
  - apply H; [apply (au_to _ _ L)|now split].
  - apply H; [apply (au_data _ _ L)|now split].
  - intros m. apply (R_handle_drains ac _ (fun ok d => on_refusal P d /\ (ok = true -> d = Accept)) m (au_handle _ _ L m)); [intros; now split|]. intros v c0 u0 Hv. split; [reflexivity|apply Hv].
Qed.
Lemma accepting_is_lawful {C U} P (a : answer C U) : accepting_answer P a -> lawful_answer P a.
Proof.
  destruct a as [c|d c u g|d c u g|d c u g|uses v c u]; cbn; auto; try (intros [-> _]; exact I). intros [-> H]. split; [reflexivity|]. intros ok. apply H.
Qed.
Lemma answering_accepts {C U} P (replies : config C U) : accepting (answering (accepting_answer P) replies).
Proof.
  assert (D : forall v (c : C * list {a : answer C U | accepting_answer P a}) (u : U) text d c' u', v [true] = Accept ->
    yields (use_stream [UDrain; UComplete] [] (fun cs => HDone (v cs) c u)) text true (d, c', u') -> d = Accept).
  { intros v c u text d c' u' Hv H. inversion H as [stop f items t ok r0 Hs Hy|stop f items ok g d0 c0 u0 Hf Hg]; subst.
    - discriminate.
    - cbn in Hf. injection Hf as <-. cbn in Hg. congruence. }
  split.
  - intros [c [|[a L] l]] u f; [now repeat eexists|]. destruct a; try (now repeat eexists). destruct L as [-> L]. cbn. rewrite L. now repeat eexists.
  - intros [c [|[a L] l]] u m t; [now repeat eexists|]. destruct a; try (now repeat eexists). destruct L as [-> L]. cbn. rewrite L. now repeat eexists.
  - intros [c [|[a L] l]] u m; [now repeat eexists|]. destruct a; try (now repeat eexists). destruct L as [-> L]. cbn. rewrite L. now repeat eexists.
  - intros [c [|[a L] l]] u m text d c' u'; [now apply (D (fun _ => Accept))|]. destruct a; try (now apply (D (fun _ => Accept))). destruct L as [-> L]. apply D. now apply L.
Qed.
(** Against the session with a writer that never fails. *)
Definition good_writer : writer unit := {| w_ready := fun w => (true, w); w_send := fun w _ => (true, w); w_flush := fun w => (true, w) |}.
Lemma against_good {C U K} (ac : aconfig C U) (ks : @ksink K) incoming k0 c u n r x :
  let good r := sendable_reply r /\ printable_reply r in
  accepting_user good ac ->
  polled n ac ks incoming k0 c u = (r, x) ->
  let cfg := answering (accepting_answer good) (ac_replies ac) in
  accepting cfg /\ drain_mail cfg /\ all_replies good cfg /\
  exists answers, let s := snd (interact cfg good_writer incoming tt (c, answers) u) in
    is_beginning (trace_of x) s /\ forall o, r = inl o -> o = WriteErr \/ (o = Ret tt /\ st_trace s = trace_of x).
Proof.
  intros good L E cfg. assert (HA := answering_accepts good (ac_replies ac)).
  assert (HD : drain_mail cfg) by apply (answering_drains good), accepting_is_lawful.
  assert (HR : all_replies good cfg) by (apply answering_replies; [apply accepting_is_lawful|apply (au_replies _ _ L)]).
  split; [exact HA|]. split; [exact HD|]. split; [exact HR|].
  destruct (from_R ac ks (accepting_answer good) incoming k0 c u n r x (R_accepting good ac ks L) E) as [_ (answers & _ & H)]. specialize (H [] []). rewrite !app_nil_r in H.
  exists answers. cbv zeta. fold cfg in H.
  destruct (interact cfg good_writer incoming tt (c, answers) u) as [o2 s2] eqn:E2. cbn [snd].
  destruct (interact cfg replay incoming (final_answers (calls x)) (c, answers) u) as [o1 s1] eqn:E1.
  assert (G : reliable good_writer) by now repeat split.
  assert (HR' : all_replies (fun r => sendable_reply r /\ printable_reply r) cfg) by exact HR.
  pose proof (C35_no_panic _ _ _ _ _ _ _ _ _ _ _ HR' HD E1) as N.
  assert (B : exists more, st_trace s2 = st_trace s1 ++ more).
  { destruct N as [-> | ->]; [|exact (C37_writer_failure _ _ _ _ cfg replay good_writer _ _ _ _ _ _ _ _ G E1 E2)]. exists []. rewrite app_nil_r.
    apply (C37_otherwise_same _ _ _ _ cfg replay good_writer _ _ _ _ _ _ _ _ _ G E1 ltac:(discriminate) E2). }
  split.
  - destruct (matches_beginning _ _ _ _ _ _ H) as [rest Hr]. destruct B as [more B]. exists (rest ++ more). cbn [snd] in Hr. rewrite B, Hr, <- app_assoc. reflexivity.
  - intros o ->. destruct o as [[]| | |]; cbn in H.
    + right. split; [reflexivity|]. destruct H as (-> & H). etransitivity; [|apply H].
      apply (C37_otherwise_same _ _ _ _ cfg replay good_writer _ _ _ _ _ _ _ _ _ G E1 ltac:(discriminate) E2).
    + now left.
    + destruct H as [[-> _]|[H _]]; [destruct N; discriminate|]. elim H. apply (au_safe _ _ L).
    + destruct H as [-> _]. destruct N; discriminate.
Qed.
Definition begins_with {A} (l l0 : list A) : Prop := exists rest, l0 = l ++ rest.
Lemma mails_begin {U} (a b : list (obs U)) : begins_with a b -> begins_with (mails_given a) (mails_given b).
Proof. intros [t ->]. exists (mails_given t). apply flat_map_app. Qed.
Lemma items_begin {U} (a b : list (obs U)) : begins_with a b -> begins_with (writes a) (written_items b).
Proof. intros [t ->]. exists (written_items t). apply flat_map_app. Qed.
Lemma replies_of_answering {C U} P (replies : config C U) jobs ws :
  are_replies (cf_welcome_banner (answering (accepting_answer P) replies) :: flat_map (replies_to (answering (accepting_answer P) replies)) jobs) ws ->
  are_replies (cf_welcome_banner replies :: flat_map (replies_to replies) jobs) ws.
Proof.
  intros (wss & -> & F). exists wss. split; [reflexivity|].
  set (R0 := fun (k' : C * list {a : answer C U | accepting_answer P a} -> N * bytes) (k : C -> N * bytes) => forall c, k' c = k (fst c)).
  assert (E : Forall2 R0 (cf_welcome_banner (answering (accepting_answer P) replies) :: flat_map (replies_to (answering (accepting_answer P) replies)) jobs)
    (cf_welcome_banner replies :: flat_map (replies_to replies) jobs)).
  { constructor; [now intros c|]. clear F. induction jobs as [|[c|from ps tos chunks] jobs IH]; [constructor| |].
    - cbn. constructor; [now intros c0|exact IH].
    - cbn [flat_map replies_to app]. constructor; [now intros c0|]. rewrite <- !app_assoc. cbn [app].
      apply Forall2_app; [clear; induction tos; cbn; constructor; [now intros c0|assumption]|]. constructor; [now intros c0|]. constructor; [now intros c0|exact IH]. }
  clear -E F. revert wss F. induction E as [|k' k l l' H _ IH]; intros wss F; inversion F as [|? w ? wss' [c H1] F1]; subst; constructor; [|now apply IH].
  exists (fst c). now rewrite <- H.
Qed.
Theorem C70_delivery : forall C U K (ac : aconfig C U) (ks : @ksink K) jobs wires evs k0 c u n r x,
  accepting_user (fun r => sendable_reply r /\ printable_reply r) ac ->
  Forall2 client_sends jobs wires -> carries evs (concat wires) ->
  polled n ac ks (src_of evs) k0 c u = (r, x) ->
  exists mails replies, delivered jobs mails /\ are_replies (cf_welcome_banner (ac_replies ac) :: flat_map (replies_to (ac_replies ac)) jobs) replies
  /\ begins_with (mails_given (trace_of x)) mails /\ begins_with (sent (calls x)) replies
  /\ forall o, r = inl o -> o = WriteErr \/ (o = Ret tt /\ mails_given (trace_of x) = mails /\ sent (calls x) = replies).
Proof.
  intros C U K ac ks jobs wires evs k0 c u n r x L Hj Hc E. rewrite <- (proj1 (C70_any_user_code _ _ _ _ _ _ _ _ _ _ _ _ E)).
  destruct (against_good ac ks _ _ _ _ _ _ _ L E) as (HA & HD & HR & answers & HB & HO).
  destruct (C40_delivery _ _ _ _ good_writer _ _ _ tt (c, answers) u _ _ HA HD HR (conj (fun _ => eq_refl) (conj (fun _ _ => eq_refl) (fun _ => eq_refl))) Hj Hc (surjective_pairing _))
    as (_ & D1 & D2 & _).
  exists (mails_given (st_trace (snd (interact (answering (accepting_answer (fun r => sendable_reply r /\ printable_reply r)) (ac_replies ac)) good_writer (src_of evs) tt (c, answers) u)))).
  eexists. split; [exact D1|]. split; [eapply replies_of_answering, D2|]. split; [apply mails_begin, HB|]. split; [apply items_begin, HB|].
  intros o Eo. destruct (HO o Eo) as [H|[-> H]]; [now left|]. right. split; [reflexivity|]. rewrite <- H. now split.
Qed.
Print Assumptions C70_delivery.
Theorem C70_cut_anywhere : forall C U K (ac : aconfig C U) (ks : @ksink K) jobs wires arrived lost evs k0 c u n r x,
  accepting_user (fun r => sendable_reply r /\ printable_reply r) ac ->
  Forall2 client_sends jobs wires -> concat wires = arrived ++ lost -> carries evs arrived ->
  polled n ac ks (src_of evs) k0 c u = (r, x) ->
  exists mails, begins_with (mails_given (trace_of x)) mails
  /\ (forall o, r = inl o -> o = WriteErr \/ (o = Ret tt /\ mails_given (trace_of x) = mails))
  /\ ((delivered jobs mails /\ lost = [])
      \/ exists js1 j js2 ws1 wire ws2 hs tail, jobs = js1 ++ j :: js2 /\ wires = ws1 ++ wire :: ws2 /\ length ws1 = length js1
         /\ (exists p q, arrived = concat ws1 ++ p /\ wire = p ++ q /\ q <> [])
         /\ delivered js1 hs /\ cut_mail j tail /\ mails = hs ++ tail).
Proof.
  intros C U K ac ks jobs wires arrived lost evs k0 c u n r x L Hj Hl Hc E.
  destruct (against_good ac ks _ _ _ _ _ _ _ L E) as (HA & HD & HR & answers & HB & HO).
  destruct (C47_cut_anywhere _ _ _ _ good_writer _ _ _ _ _ tt (c, answers) u _ _ HA HD HR (conj (fun _ => eq_refl) (conj (fun _ _ => eq_refl) (fun _ => eq_refl))) Hj Hl Hc (surjective_pairing _))
    as (_ & D).
  exists (mails_given (st_trace (snd (interact (answering (accepting_answer (fun r => sendable_reply r /\ printable_reply r)) (ac_replies ac)) good_writer (src_of evs) tt (c, answers) u)))).
  split; [apply mails_begin, HB|]. split; [|exact D].
  intros o Eo. destruct (HO o Eo) as [H|[-> H]]; [now left|]. right. split; [reflexivity|]. rewrite <- H. reflexivity.
Qed.
Print Assumptions C70_cut_anywhere.
(** A session that is pending waits for the sink, or nothing is kept back (C63). *)
Theorem C70_nothing_kept_back : forall C U K (ac : aconfig C U) (ks : @ksink K) incoming k0 c u n p x,
  polled n ac ks incoming k0 c u = (inr p, x) ->
  waiting_for_sink (calls x) \/ (st_with (w_st x) = None /\ flushed (calls x)).
Proof.
  intros C U K ac ks incoming k0 c u n p x E.
  assert (H0 : clean (w_st (world_new incoming (k0, @nil call) c u []))) by (split; reflexivity).
  destruct (fl_polls true n true _ (fl_future_with (ac_replies ac) ks _ (fl_any_user ac)) _ _ _ (fun _ => H0) E) as [-> |[[H1 H2]|H]].
  - cbn in E. injection E as <- <-. right. split; [reflexivity|]. apply dirty_flushed. reflexivity.
  - right. split; [exact H1|]. now apply dirty_flushed.
  - now left.
Qed.
Print Assumptions C70_nothing_kept_back.
Theorem C70_never_out_of_fuel : forall C U K (ac : aconfig C U) (ks : @ksink K) incoming k0 c u n x,
  polled n ac ks incoming k0 c u <> (inl NoFuel, x).
Proof.
  intros C U K ac ks incoming k0 c u n x E. destruct (C70_any_user_code _ _ _ _ _ _ _ _ _ _ _ _ E) as [_ (answers & _ & H)]. specialize (H [] []).
  cbn in H. exact (C35_sessions_end _ _ _ _ _ _ _ _ _ (proj1 H)).
Qed.

(** ** Case *)
(** User code that suspends itself in each call and changes its state, the
    configuration and the connection metadata while it does: the filters count the
    polls in the connection metadata; the handler collects what it reads until the
    stream is pending, suspends itself before and after it completes the stream,
    and stores the mail before it returns. *)
Definition patient {X} : ufuture (list bytes * nat * X) decision := {|
  uf_state := nat; uf_start := 2;
  uf_poll := fun l s => let '(c, u, v) := s in
    match l with
    | O => (Ready (Some Accept), O, (c, u, v))
    | S l => (Pending, l, (c, S u, v))
    end
|}.
Fixpoint read_on (n : nat) (text : bytes) (c : list bytes) (u : nat) : hpoll (stage * bytes) (list bytes) nat :=
  match n with
  | O => PWait (Reading, text) c u
  | S n => PNext (fun r => match r with
      | Pending => PWait (Reading, text) c (S u)
      | Ready (Some b) => read_on n (text ++ b) c u
      | Ready None => PWait (Ended, text) c u
      end)
  end.
Definition collect : hfuture (list bytes) nat := {|
  hf_state := stage * bytes; hf_start := (Reading, []);
  hf_poll := fun l c u n =>
    match l with
    | (Reading, text) => read_on n text c u
    | (Ended, text) => PComplete (fun ok => if ok : bool then PWait (Closed true, []) (c ++ [text]) u else PReturn (Reject BAD_SEQUENCE (s2b "Closed the channel before end of message")) c u)
    | (Closed _, _) => PReturn Accept c u
    end
|}.
Definition patient_config : aconfig (list bytes) nat := {|
  ac_new_mail := {| uf_state := unit; uf_start := tt; uf_poll := fun l c => (Ready (Some tt), l, c) |};
  ac_filter_from := patient; ac_filter_to := patient; ac_filter_data := patient;
  ac_handle_mail := fun _ => collect;
  ac_replies := default_config (fun c u f => (Accept, c, u, f)) (fun c u m t => (Accept, c, u, m, t)) (fun c u _ => HDone Accept c u) (fun _ => s2b "test.example.org")
|}.
Lemma patient_safe {X} : future_safe (@patient X).
Proof. intros [|l] [[c u] v]; discriminate. Qed.
Lemma read_on_order Q n : forall text c u, in_order Q fst Reading (read_on n text c u).
Proof. induction n as [|n IH]; intros text c u; cbn; [reflexivity|]. repeat split. intros b. apply IH. Qed.
Lemma read_on_safe n : forall text c u, poll_safe (read_on n text c u).
Proof. induction n as [|n IH]; intros text c u; cbn; [exact I|]. intros [|[b|]]; try exact I. apply IH. Qed.
Lemma patient_is_safe : user_safe patient_config.
Proof.
  split; try apply patient_safe.
  - intros l c. discriminate.
  - intros m [[| |ok] text] c u n; [apply read_on_safe|intros []; exact I|exact I].
Qed.
Lemma patient_replies : ok_replies (fun r => sendable_reply r /\ printable_reply r) (ac_replies patient_config).
Proof.
  intros c. pose proof test_replies as [H1 H2 H3 H4 H5 H6 H7 H8 H9 H10 H11 _ _ _ _].
  specialize (H1 []); specialize (H2 []); specialize (H3 []); specialize (H4 []); specialize (H5 []); specialize (H6 []); specialize (H7 []);
  specialize (H8 []); specialize (H9 []); specialize (H10 []); specialize (H11 []).
  repeat (apply Forall_cons; [assumption|]). apply Forall_nil.
Qed.
Lemma patient_accepts {X} : future_accepts (@patient X).
Proof.
  intros [|l] c u v r0 l' c' u' v' E; injection E as <- <- <- <- <-; (split; [reflexivity|]); intros d Ed; [|discriminate]. now injection Ed.
Qed.
Lemma collect_order m : drains_future (fun ok d => on_refusal (fun r => sendable_reply r /\ printable_reply r) d /\ (ok = true -> d = Accept)) (ac_handle_mail patient_config m).
Proof.
  exists fst. split; [reflexivity|]. intros [[| |ok] text] c u n; cbn.
  - apply read_on_order.
  - split; [reflexivity|]. intros [|]; cbn; [reflexivity|]. exists false. split; [reflexivity|]. split; [|discriminate].
    exact (ar_handle _ _ test_replies [] tt (Meta None []) [] true false).
  - exists ok. repeat split.
Qed.
Example C70_accepting_example : accepting_user (fun r => sendable_reply r /\ printable_reply r) patient_config.
Proof.
  split; [apply patient_is_safe|apply patient_replies|apply patient_accepts..|apply collect_order].
Qed.
Example C70_keeping_example : keeping_user patient_config.
Proof. split; intros; [|eapply (patient_accepts _ _ _ _ _ _ _ _ _); eassumption]. now injection (proj1 (patient_accepts _ _ _ _ _ _ _ _ _ H)). Qed.
Lemma in_order_weaken {L C U} (Q Q' : bool -> decision -> Prop) (at_ : L -> stage) (h : hpoll L C U) : (forall ok d, Q ok d -> Q' ok d) ->
  forall now, in_order Q at_ now h -> in_order Q' at_ now h.
Proof.
  intros H. induction h as [k IH|k IH|l c u|d c u|]; cbn; intros now.
  - intros (H1 & H2 & H3 & H4). repeat split; auto.
  - intros (H1 & H2). split; auto.
  - auto.
  - intros (ok & H1 & H2). eauto.
  - auto.
Qed.
(** User code that accepts everything keeps the rules. *)
Lemma accepting_lawful {C U} P (ac : aconfig C U) : accepting_user P ac -> lawful P ac.
Proof.
  intros [H1 H2 H3 H4 H5 H6].
  assert (F : forall X (f : ufuture (C * U * X) decision), future_accepts f -> future_refuses P f).
  { intros X f Hf l [[c u] v] l' [[c' u'] v'] d E. rewrite (proj2 (Hf _ _ _ _ _ _ _ _ _ E) d eq_refl). exact I. }
  split; auto. intros m. destruct (H6 m) as (at_ & S1 & S2). exists at_. split; [exact S1|]. intros l c u n.
  eapply in_order_weaken; [|apply S2]. now intros ok d [H _].
Qed.
Example C70_lawful_example : lawful (fun r => sendable_reply r /\ printable_reply r) patient_config.
Proof. apply accepting_lawful, C70_accepting_example. Qed.
(** A sink that is ready every other time. *)
Definition every_other : @ksink bool := {|
  k_ready := fun k => if k : bool then (Ready true, false) else (Pending, true);
  k_start := fun k _ => (PutOk, k);
  k_flush := fun k => if k : bool then (Ready true, false) else (Pending, true)
|}.
Example C70_delivery_example : exists wires evs, Forall2 client_sends two_jobs wires /\ carries evs (concat wires)
  /\ let r := polled 400 patient_config every_other (src_of evs) false [] 0 in
     match fst r with inl o => Some o | inr _ => None end = Some (Ret tt) /\ st_cfg (w_st (snd r)) = [s2b "hello" ++ CRLF ++ [DOT] ++ CRLF; []].
Proof.
  destruct two_wires as (wires & F & E). exists wires, (flat_map (fun b => [Pend; Chunk [b]]) (concat wires)).
  split; [exact F|]. split; [unfold carries; rewrite E; vm_compute; reflexivity|]. rewrite E. split; vm_compute; reflexivity.
Qed.
(** A session with it, and with the sink of C62 whose state changes while it is not
    ready: not over after 12 polls, over after 24; the mail is stored and the polls
    are counted. *)
Definition patient_session n := polled n patient_config slow_sink (src_of async_events) (Slow false 0) [] 0.
Definition patient_told n :=
  let r := patient_session n in
  (match fst r with inl o => Some o | inr _ => None end, st_cfg (w_st (snd r)), st_user (w_st (snd r)), length (sent (calls (snd r)))).
Example C70_example : patient_told 12 = (None, [], 6, 3) /\ patient_told 24 = (Some (Ret tt), [ln "hello"], 7, 5).
Proof. split; vm_compute; reflexivity. Qed.
(** User code that panics while it waits: the session panics, and what was sent is
    a beginning. *)
Definition panicking_config : aconfig (list bytes) nat := {|
  ac_new_mail := ac_new_mail patient_config; ac_filter_from := ac_filter_from patient_config; ac_filter_to := ac_filter_to patient_config;
  ac_filter_data := {| uf_state := bool; uf_start := false; uf_poll := fun l s => if l : bool then (Ready None, l, s) else (Pending, true, s) |};
  ac_handle_mail := ac_handle_mail patient_config; ac_replies := ac_replies patient_config
|}.
Example C70_panic_example :
  let r := polled 24 panicking_config slow_sink (src_of async_events) (Slow false 0) [] 0 in
  match fst r with inl o => Some o | inr _ => None end = Some Panic /\ length (sent (calls (snd r))) = 3 /\ ~ user_safe panicking_config.
Proof.
  split; [vm_compute; reflexivity|]. split; [vm_compute; reflexivity|]. intros H. apply (us_safe_filter_data _ H true ([], 0, Meta None [])). reflexivity.
Qed.
