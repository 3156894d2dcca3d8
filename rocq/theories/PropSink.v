(** Property C59: the outgoing sink is used as its contract demands, and its
    errors are reported. *)
From Verif Require Import Bytes Nom SmtpString Message Reply Stream Interact RepoSessions InteractProofs SpecSession
  HandlerProofs SimProofs SpecSink PropServer.

Section Sup.
Context {C U W : Type}.
Variable cfg : config C U.
Variable wr : writer W.
Notation state := (@st C U (W * verdict)).
Notation sup := (supervise wr).

Definition fit (s : state) : Prop :=
  match st_with s with None => snd (st_w s) = Idle \/ snd (st_w s) = Granted | Some _ => snd (st_w s) = Granted end.
Definition clean (s : state) : Prop := st_with s = None /\ (snd (st_w s) = Idle \/ snd (st_w s) = Granted).
Definition sound {A} (r : outcome A * state) : Prop :=
  snd (st_w (snd r)) <> Misused /\ (fst r = WriteErr <-> snd (st_w (snd r)) = Failed).
Definition ok_run {A} (r : outcome A * state) : Prop := sound r /\ (forall a, fst r = Ret a -> clean (snd r)).

Lemma clean_fit s : clean s -> fit s.
Proof. intros [H1 H2]. unfold fit. now rewrite H1. Qed.
Lemma fit_sound {A} (o : outcome A) s : o <> WriteErr -> fit s -> sound (o, s).
Proof.
  unfold fit, sound. cbn [fst snd]. intros H F. destruct (st_with s) as [b|]; [|destruct F as [F|F]]; rewrite F;
    (split; [discriminate|]); split; intros X; congruence.
Qed.
Lemma sound_andthen {A B} (r : outcome A * state) (k : A -> state -> outcome B * state) (post : state -> Prop) :
  sound r -> (forall a, fst r = Ret a -> post (snd r)) -> (forall a s, post s -> sound (k a s)) -> sound (andthen r k).
Proof.
  destruct r as [[a| | |] s]; cbn [fst snd andthen]; intros H1 H2 H3; [apply H3, (H2 a); reflexivity| | |];
    unfold sound in *; cbn [fst snd] in *; split; try apply H1; destruct H1 as [_ [H4 H5]]; split; intros X; auto; try congruence;
    try (now specialize (H4 eq_refl)); try (specialize (H5 X); congruence).
Qed.
Lemma ok_andthen {A B} (r : outcome A * state) (k : A -> state -> outcome B * state) :
  ok_run r -> (forall a s, clean s -> ok_run (k a s)) -> ok_run (andthen r k).
Proof.
  intros [H1 H2] Hk. split.
  - apply sound_andthen with (post := clean); auto. intros a s Hs. now apply Hk.
  - destruct r as [[a| | |] s]; cbn [fst snd andthen] in *; try discriminate. now apply Hk, (H2 a).
Qed.

Lemma poll_fit s : fit s -> sound (with_poll sup s) /\ (forall a, fst (with_poll sup s) = Ret a -> clean (snd (with_poll sup s))).
Proof.
  intros F. unfold with_poll. unfold fit in F. destruct (st_with s) as [b|] eqn:E.
  - cbv zeta. cbn [set_with st_w supervise w_send]. destruct (w_send wr (fst (st_w s)) b) as [[|] w] eqn:S.
    + rewrite F. cbn [fst snd]. split; [apply fit_sound; [discriminate|]; left; reflexivity|].
      intros a _. split; [reflexivity|now left].
    + rewrite F. cbn [fst snd]. split; [|discriminate]. split; cbn; [discriminate|]. split; reflexivity.
  - split; [apply fit_sound; [discriminate|]; unfold fit; now rewrite E|]. cbn. intros _ _. split; auto.
Qed.
Lemma ready_fit s : fit s -> ok_run (with_poll_ready sup s) /\ (forall a, fst (with_poll_ready sup s) = Ret a -> snd (st_w (snd (with_poll_ready sup s))) = Granted).
Proof.
  intros F. unfold with_poll_ready. destruct (poll_fit s F) as [P1 P2].
  destruct (with_poll sup s) as [[[]| | |] s1]; cbn [andthen fst snd] in *; try (split; [split; [|discriminate]|discriminate]; exact P1).
  destruct (P2 tt eq_refl) as [Q1 Q2]. cbn [supervise w_ready].
  destruct (w_ready wr (fst (st_w s1))) as [[|] w]; cbn [fst snd].
  - assert (G : match snd (st_w s1) with Idle | Granted => answer true Granted | _ => Misused end = Granted)
      by (destruct Q2 as [-> | ->]; reflexivity). rewrite G.
    split; [|reflexivity]. split; [apply fit_sound; [discriminate|]; unfold fit; cbn; rewrite Q1; now right|].
    intros a _. split; [exact Q1|now right].
  - assert (G : match snd (st_w s1) with Idle | Granted => answer false Granted | _ => Misused end = Failed)
      by (destruct Q2 as [-> | ->]; reflexivity). rewrite G.
    split; [split; [|discriminate]|discriminate]. split; cbn; [discriminate|]. split; reflexivity.
Qed.
Lemma flush_fit s : fit s -> ok_run (with_poll_flush sup s).
Proof.
  intros F. unfold with_poll_flush. destruct (poll_fit s F) as [P1 P2].
  destruct (with_poll sup s) as [[[]| | |] s1]; cbn [andthen fst snd] in *; try (split; [|discriminate]; exact P1).
  destruct (P2 tt eq_refl) as [Q1 Q2]. cbn [supervise w_flush].
  destruct (w_flush wr (fst (st_w s1))) as [[|] w]; cbn [fst snd].
  - assert (G : match snd (st_w s1) with Idle | Granted => answer true Idle | _ => Misused end = Idle)
      by (destruct Q2 as [-> | ->]; reflexivity). rewrite G.
    split; [apply fit_sound; [discriminate|]; unfold fit; cbn; rewrite Q1; now left|].
    intros a _. split; [exact Q1|now left].
  - assert (G : match snd (st_w s1) with Idle | Granted => answer false Idle | _ => Misused end = Failed)
      by (destruct Q2 as [-> | ->]; reflexivity). rewrite G.
    split; [|discriminate]. split; cbn; [discriminate|]. split; reflexivity.
Qed.
Lemma chunks_ok code : forall ts s, fit s -> ok_run (send_chunks sup code ts s).
Proof.
  induction ts as [|t ts IH]; intros s F; cbn [send_chunks]; [now apply flush_fit|].
  destruct (reply_build code _ t) as [r|e].
  2: { split; [|discriminate]. now apply fit_sound. }
  destruct (ready_fit s F) as [[R1 R2] R3].
  destruct (with_poll_ready sup s) as [[[]| | |] s1]; cbn [andthen fst snd] in *; try (split; [|discriminate]; exact R1).
  rewrite with_start_send_ok. cbn [andthen]. apply IH. unfold fit. cbn. now apply (R3 tt).
Qed.
Lemma reply_ok reply s : clean s -> ok_run (send_reply sup reply s).
Proof.
  intros Hc. unfold send_reply. destruct (byte_chunks _ _) as [ts|].
  - apply chunks_ok, clean_fit, Hc.
  - split; [|discriminate]. apply fit_sound; [discriminate|]. now apply clean_fit.
Qed.
Lemma ret_ok {A} (a : A) s : clean s -> ok_run (Ret a, s).
Proof. intros Hc. split; [apply fit_sound; [discriminate|now apply clean_fit]|]. intros _ _. exact Hc. Qed.
Lemma stop_ok {A} (o : outcome A) s : o = Panic \/ o = NoFuel -> clean s -> ok_run (o, s).
Proof. intros [-> | ->] Hc; (split; [apply fit_sound; [discriminate|now apply clean_fit]|discriminate]). Qed.

Lemma receive_ok m s : clean s -> ok_run (receive_mail cfg sup m s).
Proof.
  intros Hc. unfold receive_mail.
  destruct (run_handler (cf_handle_mail cfg (st_cfg s) (st_user s) m) (ds_new (st_reader s)) [] []) as [[[r data] cs] d] eqn:E.
  cbv zeta. destruct r as [[[v c] u]| | |].
  - destruct (ds_was_completed d); [destruct v; apply reply_ok; exact Hc|]. apply stop_ok; [auto|exact Hc].
  - exfalso. apply run_handler_total in E. tauto.
  - apply stop_ok; [auto|exact Hc].
  - apply stop_ok; [auto|exact Hc].
Qed.
Lemma line_ok line s : clean s -> ok_run (handle_line cfg sup line s).
Proof.
  intros Hc. unfold handle_line. destruct (command_parse line) as [cmd| | | |].
  1: destruct cmd; try (apply reply_ok; exact Hc).
  - unfold handle_data_cmd. destruct (st_mail s) as [m|]; [|now apply reply_ok].
    destruct (mm_to m); [apply ok_andthen; [now apply reply_ok|intros; now apply ret_ok]|].
    cbn [set_mail st_cfg st_user].
    destruct (cf_filter_data cfg (st_cfg s) (st_user s) m) as [[[d c] u] m'].
    destruct d; (apply ok_andthen; [now apply reply_ok|]); intros _ s1 Hs1; [now apply receive_ok|now apply ret_ok].
  - unfold handle_mail_cmd. destruct (st_mail s); [now apply reply_ok|]. cbv zeta.
    destruct (cf_filter_from cfg _ _ _) as [[[d c] u] f'].
    destruct d; [apply ok_andthen; [now apply reply_ok|intros; now apply ret_ok]|now apply reply_ok].
  - unfold handle_rcpt_cmd. destruct (st_mail s) as [m|]; [|now apply reply_ok].
    destruct (cf_filter_to cfg _ _ _ _) as [[[[d c] u] m'] t']. destruct d; now apply reply_ok.
  - now apply reply_ok.
  - now apply reply_ok.
  - now apply reply_ok.
  - apply stop_ok; auto.
Qed.
Lemma loop_ok : forall fuel s, clean s -> ok_run (interact_loop cfg sup fuel s).
Proof.
  induction fuel as [|fuel IH]; intros s Hc; cbn [interact_loop]; [apply stop_ok; auto|].
  destruct (next_crlf_line (st_reader s)) as [[l| | |] p].
  - apply ok_andthen; [now apply line_ok|]. intros _ s1. apply IH.
  - now apply ret_ok.
  - apply stop_ok; auto.
  - apply stop_ok; auto.
Qed.
End Sup.

(** Supervising a writer changes nothing. *)
Theorem C59_supervision_changes_nothing : forall C U W (cfg : config C U) (wr : writer W) src w v c u o s,
  interact cfg wr src w c u = (o, s) ->
  exists s', interact cfg (supervise wr) src (w, v) c u = (o, s') /\ fst (st_w s') = st_w s /\ st_trace s' = st_trace s.
Proof.
  intros C U W cfg wr src w v c u o s E.
  assert (S : sim (fun w1 w2 => w1 = fst w2) False eq (interact cfg wr src w c u) (interact cfg (supervise wr) src (w, v) c u)).
  { apply sim_interact; auto.
    - intros w1 w2 ->. left. cbn. destruct (w_ready wr (fst w2)) as [ok x]. now split.
    - intros w1 w2 b ->. left. cbn. destruct (w_send wr (fst w2) b) as [ok x]. now split.
    - intros w1 w2 ->. left. cbn. destruct (w_flush wr (fst w2)) as [ok x]. now split.
    - intros p1 p2 ->. auto.
    - intros p1 p2 ->. auto.
    - intros c0 u0 m p1 p2 ->. destruct (run_handler _ _ _ _) as [[[r data] cs] d]. auto 10. }
  rewrite E in S. destruct S as [[S1 S2]|([] & _)]. cbn [fst snd] in *.
  destruct (interact cfg (supervise wr) src (w, v) c u) as [o' s'] eqn:E'. cbn [fst snd] in *. subst o'.
  exists s'. split; [reflexivity|]. destruct S2. auto.
Qed.
Print Assumptions C59_supervision_changes_nothing.

(** In every session no call of the sink breaks its contract, and the session
    ends with the writer's error exactly if some call answered one, which is then
    the last call. *)
Theorem C59_sink_contract : forall C U W (cfg : config C U) (wr : writer W) src w c u o s,
  interact cfg (supervise wr) src (w, Idle) c u = (o, s) ->
  snd (st_w s) <> Misused /\ (o = WriteErr <-> snd (st_w s) = Failed).
Proof.
  intros C U W cfg wr src w c u o s E.
  assert (O : ok_run (interact cfg (supervise wr) src (w, Idle) c u)).
  { unfold interact. apply ok_andthen.
    - apply reply_ok. split; [reflexivity|now left].
    - intros _ s1 H1. now apply loop_ok. }
  rewrite E in O. exact (proj1 O).
Qed.
Print Assumptions C59_sink_contract.

(** Failure of any one call, the flush after the third item for instance. *)
Definition fails_at_flush : writer nat :=
  Writer nat (fun n => (true, n)) (fun n _ => (true, S n)) (fun n => (Nat.ltb n 3, n)).
Example C59_example : exists s s',
  interact test_config (supervise fails_at_flush) (src_of (map Chunk sample)) (0, Idle) [] tt = (WriteErr, s)
  /\ snd (st_w s) = Failed
  /\ interact test_config (supervise test_writer) (src_of (map Chunk sample)) (tt, Idle) [] tt = (Ret tt, s')
  /\ snd (st_w s') = Idle /\ length (st_trace s') = 18.
Proof. do 2 eexists. split; [vm_compute; reflexivity|]. split; [vm_compute; reflexivity|].
  split; [vm_compute; reflexivity|]. split; vm_compute; reflexivity. Qed.
(** The supervisor does notice misuse. *)
Example C59_misuse_is_seen :
  snd (snd (w_send (supervise test_writer) (tt, Idle) [])) = Misused
  /\ snd (snd (w_send (supervise test_writer) (snd (w_send (supervise test_writer) (tt, Granted) [])) [])) = Misused
  /\ snd (snd (w_ready (supervise test_writer) (tt, Failed))) = Misused.
Proof. repeat split. Qed.
