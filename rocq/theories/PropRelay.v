(** Property C76: passing mail on changes nothing after the first server. *)
From Verif Require Import Bytes Nom SmtpString Message Reply Stream SpecData DataProofs DataLines SinkProofs StreamProofs
  PropData SpecGrammar CommandProofs RoundTrip SpecReply Interact RepoSessions PropGrammar InteractProofs SpecSession
  SpecExchange HandlerProofs SessionProofs TraceProofs ExchangeProofs LawfulProofs SimProofs PropServer SpecE2E PropE2E SpecRelay.

(** What can be sent faithfully. *)
Definition wf_from (f : option email) : Prop := match f with Some e => wf_email e | None => True end.
Definition normal (text : bytes) : Prop := text = [] \/ exists t, text = t ++ CRLF.
Definition relayable (m : a_mail) : Prop :=
  let '(f, tos, text) := m in wf_from f /\ tos <> [] /\ Forall wf_email tos /\ normal text.

Lemma unlines_normal ls : normal (unlines ls).
Proof.
  destruct ls as [|l ls] using rev_ind; [now left|]. right. rewrite unlines_snoc, app_assoc. eauto.
Qed.
Lemma accepted_app {U} (a b : list (obs U)) : accepted_mails (a ++ b) = accepted_mails a ++ accepted_mails b.
Proof. apply flat_map_app. Qed.
Lemma accepted_writes {U} ws : accepted_mails (map (@OWrite U) ws) = [].
Proof. induction ws; auto. Qed.
Lemma accepted_says {U} r (evs : list (obs U)) : says r evs -> accepted_mails evs = [].
Proof. intros (ws & _ & ->). apply accepted_writes. Qed.

Section Taken.
Context {C U : Type}.
Variable cfg : config C U.
Hypothesis RN : rewrites_nothing cfg.
Definition tx_good (s : @sess C U) : Prop :=
  match se_tx s with Some m => wf_from (mm_from m) /\ Forall wf_email (mm_to m) | None => True end.

Lemma reacts_good s line evs s1 : reacts cfg s line evs s1 -> tx_good s -> tx_good s1 /\ accepted_mails evs = [].
Proof.
  intros R G. destruct RN as [RF RT RD].
  destruct R; unfold tx_good in *; cbn [se_tx mm_from mm_to] in *;
    match goal with X : says _ ?w |- _ => pose proof (accepted_says _ _ X) as AS end;
    rewrite ?accepted_app, ?AS; (split; [|reflexivity]); auto.
  - pose proof (RF (cf_new_mail cfg c) u f) as E. rewrite H0 in E. cbn [snd] in E. subst f'.
    split; [|constructor]. apply C15_parsed_commands_resend in H. exact (proj1 (proj1 H)).
  - destruct (RT c u m t) as [E1 E2]. rewrite H0 in E1, E2. cbn [fst snd] in E1, E2. subst m' t'.
    destruct G as [G1 G2]. split; [exact G1|]. apply Forall_app. split; [exact G2|].
    constructor; [|constructor]. apply C15_parsed_commands_resend in H. exact (proj1 (proj1 H)).
  - destruct (RT c u m t) as [E1 _]. rewrite H0 in E1. cbn [fst snd] in E1. now subst m'.
  - pose proof (RD c u m) as E. rewrite H1 in E. cbn [snd] in E. now subst m'.
Qed.
Lemma opens_good s line evs c u m : opens cfg s line evs c u m -> tx_good s ->
  wf_from (mm_from m) /\ Forall wf_email (mm_to m) /\ mm_to m <> [] /\ accepted_mails evs = [].
Proof.
  intros [c0 u0 m0 line0 c' u' m' w P T F Sy] G.
  pose proof (rn_data _ RN c0 u0 m0) as E. rewrite F in E. cbn [snd] in E. subst m'.
  destruct G as [G1 G2]. rewrite accepted_app, (accepted_says _ _ Sy). auto.
Qed.
Lemma delivers_good c u m text ok evs s1 : delivers cfg c u m text ok evs s1 ->
  se_tx s1 = None /\ (accepted_mails evs = [] \/ ok = true /\ accepted_mails evs = [(mm_from m, mm_to m, text)]).
Proof.
  intros [c0 u0 m0 t0 k d c' u' w Y Sy]. split; [reflexivity|].
  rewrite accepted_app, (accepted_says _ _ Sy), app_nil_r. destruct k, d; cbn; auto.
Qed.

Lemma dialogue_good s wire evs s1 : dialogue cfg s wire evs s1 -> tx_good s -> Forall relayable (accepted_mails evs).
Proof.
  induction 1 as [s t Ht|s l r e s1 tr s2 Hl Hr Hd IH|s l w e c u m text r e' s1 tr s2 Hl Ho Ht Hd Hd' IH|s l w e c u m text e' s1 Hl Ho Ht Hd]; intros G.
  - constructor.
  - destruct (reacts_good _ _ _ _ Hr G) as [G1 E]. rewrite accepted_app, E. auto.
  - destruct (opens_good _ _ _ _ _ _ Ho G) as (G1 & G2 & G3 & E). destruct (delivers_good _ _ _ _ _ _ _ Hd) as [E1 E2].
    rewrite !accepted_app, E. cbn [app]. apply Forall_app. split; [|apply IH; unfold tx_good; now rewrite E1].
    destruct E2 as [-> |[_ ->]]; [constructor|]. constructor; [|constructor].
    destruct Ht as (ls & _ & _ & _ & ->). split; [exact G1|]. split; [exact G3|]. split; [exact G2|apply unlines_normal].
  - destruct (opens_good _ _ _ _ _ _ Ho G) as (_ & _ & _ & E). destruct (delivers_good _ _ _ _ _ _ _ Hd) as [_ [E2|[E2 _]]]; [|discriminate].
    rewrite accepted_app, E, E2. constructor.
Qed.
End Taken.

Lemma takes_relayable wire mails : takes (@rewrites_nothing) wire mails -> Forall relayable mails.
Proof.
  intros (C & U & W & cfg & wr & evs & w & c & u & o & s & RN & [DM AR] & RW & Ca & In & ->).
  pose proof (C35_success _ _ _ _ _ _ _ _ _ _ _ AR DM RW In) as ->.
  destruct (C33_session_is_the_dialogue _ _ _ _ _ _ _ _ _ _ (all_replies_impl cfg _ _ (fun r H => proj1 H) AR) DM In)
    as (b & tr & -> & B & D & _).
  rewrite accepted_app, (accepted_says _ _ B). eapply dialogue_good; eauto. exact I.
Qed.
Lemma takes_weaken (P Q : forall C U, config C U -> Prop) wire mails :
  (forall C U cfg, P C U cfg -> Q C U cfg) -> takes P wire mails -> takes Q wire mails.
Proof.
  intros H (C & U & W & cfg & wr & evs & w & c & u & o & s & HP & R).
  exists C, U, W, cfg, wr, evs, w, c, u, o, s. auto.
Qed.
Lemma accepting_rewrites_nothing C U (cfg : config C U) : accepting cfg -> rewrites_nothing cfg.
Proof.
  intros [A1 A2 A3 _]. constructor.
  - intros c u f. destruct (A1 c u f) as (c' & u' & ->). reflexivity.
  - intros c u m t. destruct (A2 c u m t) as (c' & u' & ->). auto.
  - intros c u m. destruct (A3 c u m) as (c' & u' & ->). reflexivity.
Qed.

(** One hop. *)
Definition same_mail (m m' : a_mail) : Prop := fst m' = fst m /\ normalised (snd m) (snd m').
Lemma asked_delivered {U} mails jobs : asked_to_send mails jobs -> forall tr : list (obs U),
  delivered jobs (mails_given tr) -> Forall2 same_mail mails (accepted_mails tr).
Proof.
  intros A tr.
  assert (G : forall l, delivered jobs l -> Forall2 same_mail mails
     (flat_map (fun x => match x with (m, text, [true], Some Accept) => [(mm_from m, mm_to m, text)] | _ => [] end) l)).
  { induction A as [|c mails js A IH|f ps tos ch mails js A IH]; intros l D; inversion D; subst; cbn.
    - constructor.
    - auto.
    - constructor; [split; [reflexivity|assumption]|]. auto. }
  intros D. apply G in D. clear G A. revert D.
  assert (mails_eq : forall tr : list (obs U), flat_map (fun x => match x with (m, text, [true], Some Accept) => [(mm_from m, mm_to m, text)] | _ => [] end)
     (mails_given tr) = accepted_mails tr).
  { clear. intros tr. induction tr as [|x tr IH]; [reflexivity|].
    unfold mails_given, accepted_mails in *. cbn [flat_map]. rewrite flat_map_app, IH. f_equal.
    destruct x; try reflexivity. cbn [flat_map]. rewrite app_nil_r.
    match goal with |- context [option_map fst ?v] => destruct v as [[[|] ?]|] end; cbn [option_map fst]; reflexivity. }
  rewrite mails_eq. auto.
Qed.
Lemma one_hop mails wire mails1 : sends_on mails wire -> takes (@accepting) wire mails1 -> Forall2 same_mail mails mails1.
Proof.
  intros (jobs & wires & As & F & ->) (C & U & W & cfg & wr & evs & w & c & u & o & s & A & [DM AR] & RW & Ca & In & ->).
  destruct (C40_delivery _ _ _ _ _ _ _ _ _ _ _ _ _ A DM AR RW F Ca In) as (_ & D & _).
  eapply asked_delivered; eauto.
Qed.
Lemma normalised_normal m out : normalised m out -> normal out.
Proof. intros [[H ->]|[H ->]]; [exact H|right; eauto]. Qed.
Lemma normal_normalised m out : normal m -> normalised m out -> out = m.
Proof. intros H [[_ ->]|[H' _]]; [reflexivity|contradiction]. Qed.
Lemma hop_normal mails mails1 : Forall2 same_mail mails mails1 -> Forall (fun m => normal (snd m)) mails1.
Proof. induction 1 as [|m m1 l l1 H _ IH]; constructor; auto. eapply normalised_normal, H. Qed.
Lemma hop_same mails mails1 : Forall2 same_mail mails mails1 -> Forall (fun m => normal (snd m)) mails -> mails1 = mails.
Proof.
  induction 1 as [|m m1 l l1 [H1 H2] _ IH]; intros F; [reflexivity|]. inversion F as [|? ? F1 F2]; subst.
  f_equal; [|auto]. destruct m, m1. cbn [fst snd] in *. f_equal; [exact H1|]. now apply normal_normalised.
Qed.
Lemma hops_same n mails mails' : passed_on n mails mails' -> Forall (fun m => normal (snd m)) mails -> mails' = mails.
Proof.
  induction 1 as [mails|n mails wire m1 m2 So Ta _ IH]; intros F; [reflexivity|].
  pose proof (one_hop _ _ _ So Ta) as H. rewrite IH by (eapply hop_normal; eauto). now apply hop_same.
Qed.

(** ** C76 *)
(** Whatever bytes a client sent to the first server, what that server took goes
    through any number of further servers without a change. *)
Theorem C76_relays_change_nothing : forall wire mails n mails',
  takes (@rewrites_nothing) wire mails -> passed_on n mails mails' -> mails' = mails.
Proof.
  intros wire mails n mails' T P. apply (hops_same n); [exact P|].
  eapply Forall_impl; [|eapply takes_relayable; eauto]. intros [[f tos] text] (_ & _ & _ & H). exact H.
Qed.
(** For mails written by an application, only the end of the text may change,
    and only at the first hop. *)
Theorem C76_normalised_once : forall mails n mails',
  passed_on (S n) mails mails' ->
  Forall2 (fun m m' => fst m' = fst m /\ normalised (snd m) (snd m')) mails mails'.
Proof.
  intros mails n mails' P. inversion P as [|n' ? wire m1 ? So Ta Po]; subst.
  pose proof (one_hop _ _ _ So Ta) as H. rewrite (hops_same n _ _ Po) by (eapply hop_normal; eauto). exact H.
Qed.

(** What was taken can be sent on: no server is stuck with a mail that the
    sending half cannot express. *)
Lemma sink_takes text : exists s sent, sink_send_all sink_accept sink_new [text] = (s, SkOk) /\ sink_end sink_accept s = (sent, SkOk).
Proof.
  destruct (C06_sink_total sink_accept [text]) as [_ H]. specialize (H (fun _ _ => eq_refl)).
  destruct (sink_send_all sink_accept sink_new [text]) as [s r] eqn:E. cbn [snd] in H. subst r. exists s.
  destruct (sink_end sink_accept s) as [sent r] eqn:E2. exists sent. split; [reflexivity|].
  assert (R : snd (sink_end sink_accept s) = SkOk) by (unfold sink_end, sink_put; destruct (sk_state s); reflexivity).
  rewrite E2 in R. cbn [snd] in R. now subst r.
Qed.
Lemma wf_nil : wf_params [].
Proof. split; constructor. Qed.
Lemma relayable_sent mails : Forall relayable mails -> exists wire, sends_on mails wire.
Proof.
  induction 1 as [|[[f tos] text] mails (R1 & R2 & R3 & _) _ (wire & jobs & wires & As & F & ->)].
  - exists [], [], []. repeat constructor.
  - destruct (sink_takes text) as (s & sent & E1 & E2).
    exists (concat ((command_send (Mail f []) ++ concat (map (fun t => command_send (Rcpt (fst t) (snd t))) (map (fun t => (t, [])) tos))
       ++ command_send Data ++ concat sent) :: wires)), (JMail f [] (map (fun t => (t, [])) tos) [text] :: jobs), 
       ((command_send (Mail f []) ++ concat (map (fun t => command_send (Rcpt (fst t) (snd t))) (map (fun t => (t, [])) tos))
       ++ command_send Data ++ concat sent) :: wires).
    split; [|split; [|reflexivity]].
    + assert (M : map fst (map (fun t : email => (t, [] : parameters)) tos) = tos) by (rewrite map_map; apply map_id).
      rewrite <- M at 1. replace text with (concat [text]) at 1 by apply app_nil_r. now constructor.
    + constructor; [|exact F]. apply (cs_mail _ _ _ _ sink_accept s); auto.
      * split; [exact R1|exact wf_nil].
      * destruct tos; [now destruct R2|discriminate].
      * apply Forall_map. eapply Forall_impl; [|exact R3]. intros t Ht. split; [exact Ht|exact wf_nil].
Qed.
Theorem C76_can_be_sent_on : forall wire mails,
  takes (@rewrites_nothing) wire mails ->
  (exists wire', sends_on mails wire') /\ forall n, passed_on n mails mails.
Proof.
  intros wire mails T. apply takes_relayable in T.
  destruct (relayable_sent _ T) as (wire' & So). split; [eauto|].
  assert (N0 : Forall (fun m => normal (snd m)) mails).
  { eapply Forall_impl; [|exact T]. intros [[f tos] text] (_ & _ & _ & H). exact H. }
  induction n as [|n IH]; [constructor|].
  assert (Ta : exists mails1, takes (@accepting) wire' mails1).
  { destruct (interact open_config test_writer (src_of [Chunk wire']) tt [] tt) as [o s] eqn:E.
    exists (accepted_mails (st_trace s)), _, _, _, open_config, test_writer, [Chunk wire'], tt, [], tt, o, s.
    split; [exact open_accepting|]. split; [split; [exact open_drain|exact open_replies]|].
    split; [repeat split|]. split; [unfold carries; cbn; apply app_nil_r|]. auto. }
  destruct Ta as (mails1 & Ta). pose proof (hop_same _ _ (one_hop _ _ _ So Ta) N0) as ->.
  econstructor; eauto.
Qed.

(** A client with habits of its own: lower case, no brackets, a source route,
    parameters, an RSET in the middle (which this server does not implement),
    and a text with a leading dot. *)
Definition odd_client : bytes :=
  s2b "mail from:<@relay.example:""a\""b""@[IPv6:2001:db8::1]> SIZE=20" ++ CRLF
  ++ s2b "rcpt to: C@d.EF " ++ CRLF ++ s2b "RSET" ++ CRLF ++ s2b "RCPT TO:<g>" ++ CRLF ++ s2b "data" ++ CRLF
  ++ s2b "..x" ++ [LF] ++ s2b "y" ++ CRLF ++ s2b "." ++ CRLF ++ s2b "MAIL FROM:<>" ++ CRLF ++ s2b "DATA" ++ CRLF.
Definition odd_mail : a_mail := (Some fancy_email, [an_email "C@d.EF"; an_email "g"], s2b ".x" ++ [LF] ++ s2b "y" ++ CRLF).
Example C76_example : takes (@rewrites_nothing) odd_client [odd_mail].
Proof.
  exists _, _, _, open_config, test_writer, (map (fun b => Chunk [b]) odd_client), tt, [], tt.
  eexists. eexists. split; [apply accepting_rewrites_nothing, open_accepting|].
  split; [split; [exact open_drain|exact open_replies]|]. split; [repeat split|].
  split; [vm_compute; reflexivity|].
  split; [apply surjective_pairing|]. vm_compute. reflexivity.
Qed.
