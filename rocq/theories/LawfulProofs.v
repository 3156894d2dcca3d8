(** Sessions under a configuration that keeps the rules. *)
From Verif Require Import Bytes Nom SmtpString Message Reply Stream SpecData DataProofs DataLines StreamProofs
  NomLemmas SpecReply ReplyProofs Interact PropGrammar InteractProofs SpecSession SpecExchange HandlerProofs
  SessionProofs TraceProofs ExchangeProofs.

Section Lawful.
Context {C U W : Type}.
Variable cfg : config C U.
Variable wr : writer W.
Notation state := (@st C U W).

Lemma all_replies_impl (P Q : N * bytes -> Prop) : (forall r, P r -> Q r) -> all_replies P cfg -> all_replies Q cfg.
Proof.
  intros H [].
  assert (Hd : forall d, on_refusal P d -> on_refusal Q d) by (intros [|code msg]; cbn; auto).
  assert (Hh : forall h : handler C U, handler_replies P h -> handler_replies Q h).
  { induction h as [stop f IH|g IH|q IH|d c u]; cbn; intros Hh; auto. }
  constructor; auto.
Qed.

(** ** No panic (C35) *)
Definition no_panic (r : outcome unit * state) : Prop :=
  fst r <> Panic /\ (fst r = Ret tt -> st_with (snd r) = None).
Lemma reply_no_panic reply (s : state) : good_reply reply -> st_with s = None -> no_panic (send_reply wr reply s).
Proof.
  intros [[H1 H2] H3] Hw. pose proof (send_reply_ok wr reply s Hw H2) as P.
  destruct (send_reply wr reply s) as [o s']. destruct P as (_ & _ & P3 & P4 & _). split; cbn [fst snd].
  - apply P4. exact H3.
  - intros ->. now apply (P3 tt).
Qed.
Lemma no_panic_set m (r : outcome unit * state) : no_panic r ->
  no_panic (andthen r (fun _ s => (Ret tt, set_mail s m))).
Proof.
  intros [H1 H2]. destruct r as [[[]| | |] s]; cbn [andthen fst snd] in *; split; cbn [fst snd]; auto; discriminate.
Qed.
Hypothesis Hrep : all_replies good_reply cfg.
Hypothesis Hdrain : drain_mail cfg.

Lemma line_no_panic line (s : state) : st_with s = None -> no_panic (handle_line cfg wr line s).
Proof.
  intros Hw. unfold handle_line.
  destruct (command_parse line) as [cmd| | | |] eqn:Ep;
    try (apply reply_no_panic; [apply (ar_unrecognized _ _ Hrep)|exact Hw]).
  2:{ split; discriminate. }
  destruct cmd as [|?|?|?|?|from ps|?| |to ps| |?];
    try (apply reply_no_panic; [apply (ar_unimplemented _ _ Hrep)|exact Hw]).
  - unfold handle_data_cmd. destruct (st_mail s) as [m|];
      [|apply reply_no_panic; [apply (ar_data_before_mail _ _ Hrep)|exact Hw]].
    cbv zeta. destruct (mm_to m);
      [apply no_panic_set, reply_no_panic; [apply (ar_data_before_rcpt _ _ Hrep)|exact Hw]|].
    cbn [set_mail st_cfg st_user]. pose proof (ar_filter_data _ _ Hrep (st_cfg s) (st_user s) m) as Hd.
    destruct (cf_filter_data cfg (st_cfg s) (st_user s) m) as [[[[|code msg] c] u] m'].
    + set (s1 := log _ _).
      pose proof (reply_no_panic (cf_data_okay cfg (st_cfg s1)) s1 (ar_data_okay _ _ Hrep _) Hw) as [N1 N2].
      destruct (send_reply wr (cf_data_okay cfg (st_cfg s1)) s1) as [[[]| | |] s2]; cbn [fst snd] in *;
        cbn [andthen]; try (split; [discriminate|discriminate]); [|congruence].
      specialize (N2 eq_refl). unfold receive_mail.
      destruct (run_drains_new _ (st_reader s2) (Hdrain (st_cfg s2) (st_user s2) m'))
        as (r & text & ok & d' & Er & Y & Hc & _).
      rewrite Er. destruct r as [[v c'] u']. unfold ds_was_completed. rewrite Hc. cbv zeta.
      pose proof (yields_replies good_reply _ _ _ _ _ _ (ar_handle _ _ Hrep _ _ _) Y) as Hv.
      destruct v; (apply reply_no_panic; [|exact N2]); [apply (ar_mail_accepted _ _ Hrep)|exact Hv].
    + apply no_panic_set, reply_no_panic; [exact Hd|exact Hw].
  - unfold handle_mail_cmd. destruct (st_mail s) as [m|];
      [apply reply_no_panic; [apply (ar_already_in_mail _ _ Hrep)|exact Hw]|].
    cbv zeta. cbn [log set_cfg st_cfg st_user].
    pose proof (ar_from _ _ Hrep (cf_new_mail cfg (st_cfg s)) (st_user s) from) as Hd.
    destruct (cf_filter_from cfg (cf_new_mail cfg (st_cfg s)) (st_user s) from) as [[[[|code msg] c] u] from'].
    + apply no_panic_set, reply_no_panic; [apply (ar_mail_okay _ _ Hrep)|exact Hw].
    + apply reply_no_panic; [exact Hd|exact Hw].
  - unfold handle_rcpt_cmd. destruct (st_mail s) as [m|];
      [|apply reply_no_panic; [apply (ar_rcpt_before_mail _ _ Hrep)|exact Hw]].
    pose proof (ar_to _ _ Hrep (st_cfg s) (st_user s) m to) as Hd.
    destruct (cf_filter_to cfg (st_cfg s) (st_user s) m to) as [[[[[|code msg] c] u] m'] to']; cbv zeta;
      apply reply_no_panic; try exact Hw; [apply (ar_rcpt_okay _ _ Hrep)|exact Hd].
Qed.
Lemma loop_no_panic : forall fuel (s : state), st_with s = None -> fst (interact_loop cfg wr fuel s) <> Panic.
Proof.
  induction fuel as [|fuel IH]; intros s Hw; cbn [interact_loop]; [discriminate|].
  pose proof (next_crlf_line_ok (st_reader s)) as P. unfold StreamProofs.line_post in P.
  destruct (next_crlf_line (st_reader s)) as [[l| | |] p]; try tauto; [|discriminate].
  pose proof (line_no_panic l (set_reader s p) Hw) as [N1 N2].
  destruct (handle_line cfg wr l (set_reader s p)) as [[[]| | |] s1]; cbn [andthen fst snd] in *; try congruence.
  apply IH. auto.
Qed.
Lemma interact_no_panic src w c u : fst (interact cfg wr src w c u) <> Panic.
Proof.
  unfold interact. set (s0 := St _ _ _ _ _ _ _).
  pose proof (reply_no_panic (cf_welcome_banner cfg c) s0 (ar_banner _ _ Hrep c) eq_refl) as [N1 N2].
  destruct (send_reply wr (cf_welcome_banner cfg c) s0) as [[[]| | |] s1]; cbn [andthen fst snd] in *; try congruence.
  apply loop_no_panic. auto.
Qed.
End Lawful.

(** ** Polling after the end (C39) *)
Lemma drains_stops {C U} (h : handler C U) : drains h -> stops_at_end false h.
Proof.
  induction 1 as [stop f H IH Hend]. constructor; [exact IH|].
  intros items. destruct (Hend items) as (g & -> & Hg). constructor. intros ok.
  destruct (Hg ok) as (d & c & u & ->). constructor.
Qed.
(** Where the stream is while such a handler runs on a connection that was open. *)
Definition cut_ds (d : datastream) : Prop :=
  unread (ds_source d) = [] /\ pr_prepended (ds_source d) = None /\ ended d = true.
Definition in_use (k : nat) (fin : bool) (cs : list bool) (d : datastream) : Prop :=
  over d = k /\
  if fin return Prop then
     (ended d = false /\ (ds_st d = Finished /\ ds_slot d \/ ds_st d = Completed))
     \/ (cut_ds d /\ (ds_st d = EarlyFin /\ cs = [] \/ ds_st d = Completed /\ cs = [false]))
   else good d /\ ended d = false /\ cs = [].
Definition used (k : nat) (cs : list bool) (d : datastream) : Prop :=
  over d = k /\ (ended d = false \/ (cut_ds d /\ (ds_st d = Completed -> cs = [false]))).
Lemma in_use_used k fin cs d : in_use k fin cs d -> used k cs d.
Proof.
  intros [O H]. split; [exact O|]. destruct fin.
  - destruct H as [[H _]|[H [[E _]|[_ E]]]]; [now left|right; split; [exact H|congruence]|right; auto].
  - left. tauto.
Qed.
Lemma run_stops {C U} k0 fin (h : handler C U) : stops_at_end fin h -> forall d data cs, in_use k0 fin cs d ->
  let '(_, _, cs', d') := run_handler h d data cs in used k0 cs' d'.
Proof.
  induction 1 as [stop f H1 IH1 H2 IH2|stop f Hs H IH|k H1 IH1 H2 IH2|fin g H IH|fin v c u];
    intros d data cs X; cbn [run_handler].
  - pose proof X as (O & G & En & Hcs). pose proof (ds_read_until_ok stop (S (ds_size d)) [] d G ltac:(lia)) as P.
    destruct (ds_read_until (S (ds_size d)) stop [] d) as [[[items [|]]|] d1]; cbn [until_post] in P.
    + apply IH2. destruct P as (Hs1 & new & _ & P). destruct P as [(P1 & _ & P3 & P4)|(P1 & _ & P3 & P4 & P5 & P6)].
      * split; [congruence|]. left. split; [congruence|]. left. auto.
      * split; [rewrite P5, O, En; apply Nat.add_0_r|]. right. unfold cut_ds. auto.
    + destruct P as (P1 & P2 & P3 & P4 & _). apply IH1; [exact P1|]. split; [congruence|]. split; [exact P2|]. split; [congruence|exact Hcs].
    + destruct P.
  - assert (E : ds_read_until (S (ds_size d)) stop [] d = (Some ([], false), d)) by (cbn [ds_read_until]; now rewrite Hs).
    rewrite E. apply IH, X.
  - pose proof X as (O & [Hsl G] & En & Hcs). destruct G as [Ha|Hf].
    + pose proof (ds_poll_ok d Ha Hsl) as P. destruct (ds_poll d) as [[[b|]| |] d1]; cbn [poll_post] in P.
      * destruct P as (_ & S1 & _ & P1 & P2 & P3). apply IH1; [discriminate|]. split; [congruence|].
        split; [split; [exact S1|tauto]|]. split; [congruence|exact Hcs].
      * destruct P as (S1 & _ & [(P1 & _ & P2 & P3)|(P1 & _ & P2 & P3 & _ & P4 & P5 & _)]); apply IH2.
        -- split; [congruence|]. left. split; [congruence|]. left. auto.
        -- split; [rewrite P4, O, En; apply Nat.add_0_r|]. right. unfold cut_ds. auto.
      * destruct P as (P1 & P2 & _ & _ & P3 & P4). apply IH1; [discriminate|]. split; [congruence|].
        split; [split; auto|]. split; [congruence|exact Hcs].
      * destruct P.
    + unfold ds_poll. rewrite Hf. apply IH2. split; [exact O|]. left. auto.
  - assert (Hfin : ds_st d = Finished -> ds_slot d -> over d = k0 -> ended d = false ->
      let '(_, _, cs', d') := match ds_complete d with
        | (CompleteOk, d') => run_handler (g true) d' data (cs ++ [true])
        | (CompleteErr, d') => run_handler (g false) d' data (cs ++ [false])
        | (CompletePanic, d') => (Panic, data, cs, d')
        end in used k0 cs' d').
    { intros Hf Hsl O En. destruct (complete_finished d Hsl Hf) as (d2 & -> & _ & Hc & Ho & He). apply IH.
      split; [congruence|]. left. split; [congruence|]. now right. }
    assert (Hpanic : ds_complete d = (CompletePanic, d) ->
      let '(_, _, cs', d') := match ds_complete d with
        | (CompleteOk, d') => run_handler (g true) d' data (cs ++ [true])
        | (CompleteErr, d') => run_handler (g false) d' data (cs ++ [false])
        | (CompletePanic, d') => (Panic, data, cs, d')
        end in used k0 cs' d').
    { intros ->. apply (in_use_used _ _ _ _ X). }
    destruct X as [O X]. destruct fin.
    + destruct X as [[En [[Hf Hsl]|Hc]]|[Hcut [[Hf ->]|[Hc _]]]].
      * now apply Hfin.
      * apply Hpanic. unfold ds_complete. now rewrite Hc.
      * unfold ds_complete. rewrite Hf. cbn [app]. apply IH. split; [exact O|]. right. split; [exact Hcut|]. now right.
      * apply Hpanic. unfold ds_complete. now rewrite Hc.
    + destruct X as ([Hsl [Ha|Hf]] & En & _).
      * apply Hpanic. unfold ds_complete. now destruct Ha as [-> | [-> | ->]].
      * now apply Hfin.
  - apply (in_use_used _ _ _ _ X).
Qed.
Section Over.
Context {C U W : Type}.
Variable cfg : config C U.
Variable wr : writer W.
Notation state := (@st C U W).
Hypothesis Hstops : stops_at_end_mail cfg.

Definition cut_handle (o : obs U) : Prop := exists u m text v, o = OHandle u m text [false] v.
Definition p_over (p : prependable) : nat := src_over (pr_stream p).
Definition p_ended (p : prependable) : bool := src_ended (pr_stream p).
(** The reader after a line, if the end had not been seen before. *)
Definition reader_post (s : state) (r : outcome unit * state) : Prop :=
  let p := st_reader s in let p' := st_reader (snd r) in
  exists evs, st_trace (snd r) = st_trace s ++ evs /\ (p_ended p = false -> p_over p' = p_over p
  /\ (p_ended p' = false
      \/ fst r <> Ret tt
      \/ (unread p' = [] /\ pr_prepended p' = None /\ p_ended p' = true /\ Exists cut_handle evs))).
Lemma reply_reader reply (s s1 : state) : st_reader s1 = st_reader s ->
  (exists evs, st_trace s1 = st_trace s ++ evs) -> reader_post s (send_reply wr reply s1).
Proof.
  intros Hr (evs & Ht). destruct (send_reply wr reply s1) as [o s'] eqn:E.
  destruct (send_reply_weak _ _ _ _ _ E) as ((_ & _ & _ & S4) & (ws & T) & _).
  unfold reader_post. cbn [snd]. exists (evs ++ map OWrite ws). rewrite T, Ht, <- app_assoc. split; [reflexivity|].
  rewrite S4, Hr. auto.
Qed.
Lemma reader_set m (s : state) (r : outcome unit * state) : reader_post s r ->
  reader_post s (andthen r (fun _ s => (Ret tt, set_mail s m))).
Proof. destruct r as [[[]| | |] s1]; cbn [andthen]; auto. Qed.
Lemma line_reader line (s : state) : reader_post s (handle_line cfg wr line s).
Proof.
  assert (H0 : forall reply, reader_post s (send_reply wr reply s)).
  { intros reply. apply reply_reader; [reflexivity|]. exists []. now rewrite app_nil_r. }
  unfold handle_line.
  destruct (command_parse line) as [cmd| | | |] eqn:Ep; try apply H0.
  2:{ exists []. rewrite app_nil_r. split; [reflexivity|]. cbn. auto. }
  destruct cmd as [|?|?|?|?|from ps|?| |to ps| |?]; try apply H0.
  - unfold handle_data_cmd. destruct (st_mail s) as [m|]; [|apply H0]. cbv zeta.
    destruct (mm_to m);
      [apply reader_set, reply_reader; [reflexivity|exists []; now rewrite app_nil_r]|].
    cbn [set_mail st_cfg st_user].
    destruct (cf_filter_data cfg (st_cfg s) (st_user s) m) as [[[[|code msg] c] u] m'].
    + set (s1 := log _ _). set (o1 := OFilterData _ _ _ _ _) in *.
      assert (Hs1 : reader_post s (send_reply wr (cf_data_okay cfg (st_cfg s1)) s1)).
      { apply reply_reader; [reflexivity|]. exists [o1]. reflexivity. }
      destruct (send_reply wr (cf_data_okay cfg (st_cfg s1)) s1) as [[[]| | |] s2] eqn:E2; cbn [andthen]; try exact Hs1.
      destruct (send_reply_weak _ _ _ _ _ E2) as ((_ & _ & _ & S4) & (ws & T) & _). cbn in S4, T.
      unfold receive_mail.
      assert (X : p_ended (st_reader s) = false -> in_use (p_over (st_reader s)) false [] (ds_new (st_reader s2))).
      { intros H1. destruct (ds_new_active (st_reader s2)) as [Ha Hsl]. unfold in_use, over, ended, good, p_over. cbn [ds_new ds_source].
        split; [now rewrite S4|]. split; [split; [exact Hsl|now left]|]. split; [rewrite S4; exact H1|reflexivity]. }
      pose proof (fun H1 => run_stops _ false _ (Hstops (st_cfg s2) (st_user s2) m') (ds_new (st_reader s2)) [] [] (X H1)) as R.
      destruct (run_handler (cf_handle_mail cfg (st_cfg s2) (st_user s2) m') (ds_new (st_reader s2)) [] []) as [[[r text] cs] d'].
      assert (Hstop : forall (o : outcome unit) (s' : state), st_reader s' = ds_source d' ->
        (exists evs, st_trace s' = st_trace s2 ++ evs) -> o <> Ret tt -> reader_post s (o, s')).
      { intros o s' Er (evs & Et) Ho. exists (([o1] ++ map OWrite ws) ++ evs). cbn [fst snd]. rewrite Et, T, Er.
        split; [now rewrite <- !app_assoc|]. intros H1. destruct (R H1) as [R1 _]. split; [exact R1|]. auto. }
      destruct r as [[[v c'] u']| | |]; cbv zeta.
      2:{ apply Hstop; [reflexivity| |discriminate]. exists []. now rewrite app_nil_r. }
      2:{ apply Hstop; [reflexivity| |discriminate]. eexists. reflexivity. }
      2:{ apply Hstop; [reflexivity| |discriminate]. exists []. now rewrite app_nil_r. }
      set (s3 := log _ _).
      assert (Hfin : forall reply, ds_st d' = Completed -> reader_post s (send_reply wr reply s3)).
      { intros reply Hc. destruct (send_reply wr reply s3) as [o s4] eqn:E4.
        destruct (send_reply_weak _ _ _ _ _ E4) as ((_ & _ & _ & R4) & (ws' & T') & _). cbn in R4, T'.
        unfold reader_post. cbn [fst snd]. rewrite R4.
        exists (([o1] ++ map OWrite ws) ++ [OHandle (st_user s2) m' text cs (Some (v, u'))] ++ map OWrite ws').
        rewrite T', T. split; [now rewrite <- !app_assoc|]. intros H1. destruct (R H1) as [R1 R2]. split; [exact R1|].
        destruct R2 as [R2|[(M1 & M2 & M3) M4]]; [now left|right; right].
        split; [exact M1|]. split; [exact M2|]. split; [exact M3|].
        rewrite (M4 Hc). apply Exists_app. right. constructor. repeat eexists. }
      destruct (ds_was_completed d') eqn:Ew.
      * assert (Hc : ds_st d' = Completed) by (unfold ds_was_completed in Ew; now destruct (ds_st d')).
        destruct v; now apply Hfin.
      * apply Hstop; [reflexivity| |discriminate]. eexists. reflexivity.
    + apply reader_set, reply_reader; [reflexivity|]. eexists. reflexivity.
  - unfold handle_mail_cmd. destruct (st_mail s) as [m|]; [apply H0|].
    cbv zeta. cbn [log set_cfg st_cfg st_user].
    destruct (cf_filter_from cfg (cf_new_mail cfg (st_cfg s)) (st_user s) from) as [[[[|code msg] c] u] from'].
    + apply reader_set, reply_reader; [reflexivity|]. cbn. rewrite <- app_assoc. eauto.
    + apply reply_reader; [reflexivity|]. cbn. rewrite <- app_assoc. eauto.
  - unfold handle_rcpt_cmd. destruct (st_mail s) as [m|]; [|apply H0].
    destruct (cf_filter_to cfg (st_cfg s) (st_user s) m to) as [[[[[|code msg] c] u] m'] to']; cbv zeta;
      apply reply_reader; try reflexivity; eexists; reflexivity.
Qed.
Definition cut_after (p : prependable) : Prop :=
  unread p = [] /\ pr_prepended p = None /\ p_ended p = true /\ p_over p = 0.
Lemma loop_over : forall fuel (s : state),
  (p_ended (st_reader s) = false /\ p_over (st_reader s) = 0)
  \/ (cut_after (st_reader s) /\ Exists cut_handle (st_trace s)) ->
  let s' := snd (interact_loop cfg wr fuel s) in
  p_over (st_reader s') = 0 \/ (p_over (st_reader s') = 1 /\ Exists cut_handle (st_trace s')).
Proof.
  induction fuel as [|fuel IH]; intros s H; cbn [interact_loop].
  { cbn [snd]. left. destruct H as [[_ H]|[(_ & _ & _ & H) _]]; exact H. }
  pose proof (next_crlf_line_ok (st_reader s)) as P. unfold StreamProofs.line_post in P. cbn [app] in P.
  destruct (next_crlf_line (st_reader s)) as [[l| | |] p]; try tauto.
  - destruct P as (a & b & E & _ & _ & _ & He & Ho).
    destruct H as [[H1 H2]|[(H1 & _) _]]; [|rewrite H1 in E; destruct a; discriminate].
    assert (G1 : p_ended (st_reader (set_reader s p)) = false) by (unfold p_ended in *; cbn [set_reader st_reader]; congruence).
    assert (G2 : p_over (st_reader (set_reader s p)) = 0) by (unfold p_over in *; cbn [set_reader st_reader]; congruence).
    pose proof (line_reader l (set_reader s p)) as (evs & T & R). destruct (R G1) as [R0 R']. clear R. rename R' into R. rewrite G2 in R0. cbn [set_reader st_trace] in T.
    destruct (handle_line cfg wr l (set_reader s p)) as [o s1]; cbn [fst snd] in *.
    destruct o as [[]| | |]; cbn [andthen]; try (now left). apply IH.
    destruct R as [R|[R|(R1 & R2 & R3 & R5)]]; [left; auto|congruence|].
    right. split; [repeat split; assumption|]. rewrite T. apply Exists_app. now right.
  - destruct P as [_ ->]. cbn [snd set_reader st_reader st_trace]. unfold p_over, p_ended, after_end in *.
    cbn [pr_stream src_over]. destruct H as [[H1 H2]|[(H1 & H2 & H3 & H4) H5]].
    + left. rewrite H1, H2. reflexivity.
    + right. unfold p_over, p_ended in *. rewrite H3, H4. split; [reflexivity|exact H5].
Qed.
Lemma interact_over evs w c u : let s' := snd (interact cfg wr (src_of evs) w c u) in
  p_over (st_reader s') = 0 \/ (p_over (st_reader s') = 1 /\ Exists cut_handle (st_trace s')).
Proof.
  unfold interact. set (s0 := St _ _ _ _ _ _ _).
  destruct (send_reply wr (cf_welcome_banner cfg c) s0) as [o s1] eqn:E.
  destruct (send_reply_weak _ _ _ _ _ E) as ((_ & _ & _ & S4) & _). cbn in S4.
  destruct o as [[]| | |]; cbn [andthen snd]; try (left; rewrite S4; reflexivity).
  apply loop_over. left. now rewrite S4.
Qed.
End Over.
