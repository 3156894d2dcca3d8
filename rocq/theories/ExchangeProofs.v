(** Lemmas for C31-C39. *)
From Verif Require Import Bytes Nom SmtpString Message Reply Stream SpecData DataProofs DataLines StreamProofs
  NomLemmas SpecReply ReplyProofs Interact PropGrammar InteractProofs SpecSession SpecExchange HandlerProofs
  SessionProofs TraceProofs.

(** ** Splitting traces *)
Lemma split_mid {A} (pre : list A) x post a b : pre ++ x :: post = a ++ b ->
  (exists p, a = pre ++ x :: p /\ post = p ++ b) \/ (exists p, b = p ++ x :: post /\ pre = a ++ p).
Proof.
  revert a. induction pre as [|y pre IH]; intros [|z a] H; cbn in *.
  - right. now exists [].
  - injection H as -> ->. left. now exists a.
  - right. now exists (y :: pre).
  - injection H as -> H. destruct (IH _ H) as [(p & -> & E)|(p & -> & ->)]; [left|right]; now exists p.
Qed.
Lemma not_in_writes {U} (o : obs U) ws : (forall b, o <> OWrite b) -> ~ In o (map OWrite ws).
Proof. intros H Hin. apply in_map_iff in Hin. destruct Hin as (b & E & _). exact (H b (eq_sym E)). Qed.

Section Trace.
Context {C U : Type}.
Variable cfg : config C U.

(** The only place where a mail is handled. *)
Lemma line_events_handle tx pre u m data cs v post o tx' :
  line_events cfg tx (pre ++ OHandle u m data cs v :: post) o tx' ->
  exists u0 m0 ws ws', pre = OFilterData u0 m0 Accept u m :: map OWrite ws /\ post = map OWrite ws'
  /\ tx = Some m0 /\ mm_to m0 <> []
  /\ (exists c c', cf_filter_data cfg c u0 m0 = (Accept, c', u, m))
  /\ (cs = [] \/ v = None -> o = Panic /\ ws' = []).
Proof.
  intros H. remember (pre ++ OHandle u m data cs v :: post) as evs eqn:E.
  assert (Hno : forall l, evs = l -> (forall x, In x l -> x <> OHandle u m data cs v) -> False).
  { intros l -> Hl. apply (Hl (OHandle u m data cs v)); [|reflexivity]. rewrite E. apply in_elt. }
  assert (Hw : forall ws x, In x (map OWrite ws) -> x <> OHandle u m data cs v).
  { intros ws x Hin ->. revert Hin. apply not_in_writes. discriminate. }
  destruct H as [| | | | |c0 u0 m0 c0' u0' m0' ws0 data0 cs0 v0 ws0' o tx' A1 A2 A3 A4 A5];
    try (exfalso; eapply Hno; [reflexivity|]; intros x Hx; cbn [app In] in Hx;
    repeat (destruct Hx as [<-|Hx]; [discriminate|]); exact (Hw _ _ Hx)).
  apply eq_sym in E. cbn [app] in E. destruct pre as [|y pre]; [discriminate E|].
  injection E as -> E. apply split_mid in E. destruct E as [(p & E & _)|(p & E & ->)].
  { exfalso. apply (Hw ws0 (OHandle u m data cs v)); [|reflexivity]. rewrite E. apply in_elt. }
  destruct p as [|y p].
  - injection E as E1 E2 E3 E4 E5 E6. subst. exists u0, m0, ws0, ws0'. rewrite app_nil_r. repeat split; eauto; apply A5; auto.
  - exfalso. injection E as _ E. apply (Hw ws0' (OHandle u m data cs v)); [|reflexivity]. rewrite E. apply in_elt.
Qed.

Lemma line_replay tx evs tx' : line_events cfg tx evs (Ret tt) tx' -> fold_left tx_step evs tx = tx'.
Proof.
  assert (Hfold : forall ws (tx : option mail_meta), fold_left tx_step (map (@OWrite U) ws) tx = tx).
  { induction ws; intros; cbn; auto. }
  intros H. inversion H; subst; rewrite ?fold_left_app; cbn [fold_left tx_step]; rewrite ?Hfold;
    try (match goal with X : _ -> tx' = _ |- _ => rewrite (X eq_refl) end); try reflexivity.
  congruence.
Qed.
Lemma run_events_handle : forall tx evs o, run_events cfg tx evs o ->
  forall pre u m data cs v post, evs = pre ++ OHandle u m data cs v :: post ->
  exists pre1 u0 m0 ws, pre = pre1 ++ OFilterData u0 m0 Accept u m :: map OWrite ws
  /\ mm_to m0 <> [] /\ fold_left tx_step pre1 tx = Some m0
  /\ (exists c c', cf_filter_data cfg c u0 m0 = (Accept, c', u, m))
  /\ (cs = [] \/ v = None -> o = Panic /\ post = []).
Proof.
  induction 1 as [tx|tx evs o tx' H Ho|tx evs tx1 evs' o H Hr IH]; intros pre u m data cs v post E.
  - destruct pre; discriminate.
  - subst evs. apply line_events_handle in H. destruct H as (u0 & m0 & ws & ws' & -> & -> & -> & H1 & H2 & H3).
    exists [], u0, m0, ws. repeat split; auto; apply H3 in H; destruct H as [? ->]; auto.
  - apply eq_sym, split_mid in E. destruct E as [(p & -> & ->)|(p & -> & ->)].
    + apply line_events_handle in H. destruct H as (u0 & m0 & ws & ws' & -> & -> & -> & H1 & H2 & H3).
      exists [], u0, m0, ws. repeat split; auto; apply H3 in H; destruct H; discriminate.
    + destruct (IH p u m data cs v post eq_refl) as (pre1 & u0 & m0 & ws & -> & I1 & I2 & I3 & I4).
      exists (evs ++ pre1), u0, m0, ws. rewrite <- app_assoc. repeat split; auto; try apply I4; auto.
      now rewrite fold_left_app, (line_replay _ _ _ H).
Qed.

Local Notation keeps_meta := (keeps_meta cfg).
Definition envelope_inv (hist : list (obs U)) (tx : option mail_meta) : Prop :=
  forall m, tx = Some m -> open_transaction hist m.
Lemma open_more (hist : list (obs U)) m (evs : list (obs U)) : open_transaction hist m -> Forall (fun o => ~ begins_or_ends o) evs ->
  open_transaction (hist ++ evs) (Meta (mm_from m) (mm_to m ++ flat_map accepted_rcpt evs)).
Proof.
  intros (old & u & a & u' & f & since & -> & H1 & ->) H2.
  exists old, u, a, u', f, (since ++ evs). rewrite <- app_assoc. split; [reflexivity|].
  split; [now apply Forall_app|]. cbn [mm_from mm_to]. now rewrite flat_map_app.
Qed.
Lemma writes_quiet ws : Forall (fun o : obs U => ~ begins_or_ends o) (map OWrite ws).
Proof. apply Forall_map. apply Forall_forall. intros x _ H. exact H. Qed.
Lemma writes_rcpt ws : flat_map (@accepted_rcpt U) (map OWrite ws) = [].
Proof. induction ws; cbn; auto. Qed.
Lemma meta_eta m : Meta (mm_from m) (mm_to m) = m.
Proof. now destruct m. Qed.
Lemma line_envelope hist tx evs tx' : keeps_meta -> envelope_inv hist tx -> line_events cfg tx evs (Ret tt) tx' ->
  envelope_inv (hist ++ evs) tx'.
Proof.
  intros [K1 K2] Hi H m1 E.
  assert (Hw : forall m ws, open_transaction hist m -> open_transaction (hist ++ map OWrite ws) m).
  { intros m ws Ho. pose proof (open_more hist m (map OWrite ws) Ho (writes_quiet ws)) as P.
    rewrite writes_rcpt, app_nil_r, meta_eta in P. exact P. }
  inversion H; subst.
  - apply Hw, Hi. symmetry. auto.
  - match goal with X : _ -> Some m1 = _ |- _ => specialize (X eq_refl); rename X into E end.
    destruct d; [|discriminate]. injection E as ->.
    exists (hist ++ [ONewMail]), u, f, u', f', (map OWrite ws). rewrite <- app_assoc. split; [reflexivity|].
    split; [apply writes_quiet|]. now rewrite writes_rcpt.
  - match goal with X : _ -> Some m1 = _ |- _ => specialize (X eq_refl); rename X into E end.
    specialize (K1 c u m t).
    match goal with X : cf_filter_to _ _ _ _ _ = _ |- _ => rewrite X in K1 end. cbn in K1. subst m'.
    pose proof (open_more hist m ([OTo u m t d u' m t'] ++ map OWrite ws) (Hi m eq_refl)) as P.
    specialize (P ltac:(apply Forall_app; split; [constructor; [intros X; exact X|constructor]|apply writes_quiet])).
    rewrite flat_map_app, writes_rcpt, app_nil_r in P.
    destruct d; injection E as ->; cbn [flat_map accepted_rcpt app] in P; [exact P|].
    rewrite ?app_nil_r, meta_eta in P. exact P.
  - match goal with X : _ -> Some m1 = _ |- _ => specialize (X eq_refl); rename X into E end.
    injection E as ->. specialize (K2 c u m).
    match goal with X : cf_filter_data _ _ _ _ = _ |- _ => rewrite X in K2 end. cbn in K2. subst m'.
    pose proof (open_more hist m ([OFilterData u m (Reject code msg) u' m] ++ map OWrite ws) (Hi m eq_refl)) as P.
    specialize (P ltac:(apply Forall_app; split; [constructor; [intros X; exact X|constructor]|apply writes_quiet])).
    rewrite flat_map_app, writes_rcpt, app_nil_r in P. cbn [flat_map accepted_rcpt app] in P.
    rewrite ?app_nil_r, meta_eta in P. exact P.
  - congruence.
  - match goal with X : _ -> Some m1 = None |- _ => specialize (X eq_refl); discriminate X end.
Qed.
Lemma run_envelope : keeps_meta -> forall tx evs o, run_events cfg tx evs o -> forall hist, envelope_inv hist tx ->
  forall pre u m data cs v post, evs = pre ++ OHandle u m data cs v :: post ->
  exists pre1 u0 ws, pre = pre1 ++ OFilterData u0 m Accept u m :: map OWrite ws
  /\ mm_to m <> [] /\ open_transaction (hist ++ pre1) m.
Proof.
  intros K. induction 1 as [tx|tx evs o tx' H Ho|tx evs tx1 evs' o H Hr IH]; intros hist Hi pre u m data cs v post E.
  - destruct pre; discriminate.
  - subst evs. apply line_events_handle in H. destruct H as (u0 & m0 & ws & ws' & -> & -> & -> & H1 & (c & c' & H2) & H3).
    destruct K as [_ K]. specialize (K c u0 m0). rewrite H2 in K. cbn in K. subst m.
    exists [], u0, ws. rewrite app_nil_r. auto.
  - apply eq_sym, split_mid in E. destruct E as [(p & -> & ->)|(p & -> & ->)].
    + apply line_events_handle in H. destruct H as (u0 & m0 & ws & ws' & -> & -> & -> & H1 & (c & c' & H2) & H3).
      destruct K as [_ K]. specialize (K c u0 m0). rewrite H2 in K. cbn in K. subst m.
      exists [], u0, ws. rewrite app_nil_r. auto.
    + pose proof (line_envelope hist tx evs tx1 K Hi H) as Hi'.
      destruct (IH (hist ++ evs) Hi' p u m data cs v post eq_refl) as (pre1 & u0 & ws & -> & I1 & I2).
      exists (evs ++ pre1), u0, ws. rewrite <- !app_assoc in *. auto.
Qed.
End Trace.

(** ** Exchanges *)
Section Partition.
Context {C U : Type}.
Variable cfg : config C U.
Variable P : N * bytes -> Prop.
Hypothesis HP : all_replies P cfg.
Lemma says_one_reply reply evs (calls : list (obs U)) : P reply -> says reply evs -> Forall (fun o => ~ is_write o) calls ->
  one_reply P (calls ++ evs).
Proof. intros Hp (ws & H & ->) Hc. destruct reply as [code text]. exists calls, code, text, ws. auto. Qed.
Lemma says_calls reply evs line : says reply evs -> Forall (call_of_line (U := U) line) evs.
Proof. intros (ws & _ & ->). apply Forall_map, Forall_forall. intros x _. exact I. Qed.
Lemma says_writes reply evs : says reply evs -> Forall (is_write (U := U)) evs.
Proof. intros (ws & _ & ->). apply Forall_map, Forall_forall. intros x _. exact I. Qed.
Ltac quiet := repeat constructor; intros X; exact X.
Ltac configured :=
  match goal with
  | E : cf_filter_from cfg ?c ?u ?f = (Reject _ _, _, _, _) |- P (_, _) =>
      let H := fresh in pose proof (ar_from _ _ HP c u f) as H; rewrite E in H; exact H
  | E : cf_filter_to cfg ?c ?u ?m ?t = (Reject _ _, _, _, _, _) |- P (_, _) =>
      let H := fresh in pose proof (ar_to _ _ HP c u m t) as H; rewrite E in H; exact H
  | E : cf_filter_data cfg ?c ?u ?m = (Reject _ _, _, _, _) |- P (_, _) =>
      let H := fresh in pose proof (ar_filter_data _ _ HP c u m) as H; rewrite E in H; exact H
  | |- P _ => apply HP
  end.
Lemma reacts_exchange s line evs s' : reacts cfg s (line ++ CRLF) evs s' ->
  one_reply P evs /\ Forall (call_of_line line) evs.
Proof.
  intros H. inversion H; subst;
    match goal with Hs : says _ ?w |- _ => rename Hs into Hsays end;
    (split; [first [refine (says_one_reply _ _ _ _ Hsays _); [configured|quiet] | refine (says_one_reply _ _ [] _ Hsays _); [configured|constructor]]|]);
    rewrite ?Forall_app; try (exact (says_calls _ _ line Hsays)); split; try exact (says_calls _ _ line Hsays);
    repeat constructor; cbn; eauto.
Qed.
Lemma transfer_split wire text rest : transfer wire text rest ->
  exists content, wire = content ++ rest /\ transfer content text [].
Proof.
  intros (ls & H1 & H2 & -> & ->). exists (unlines ls ++ end_line ++ CRLF). rewrite <- !app_assoc.
  split; [reflexivity|]. exists ls. rewrite app_nil_r. auto.
Qed.
Lemma cut_last_cons (x : @exchange U) xs tail : ~ is_cut x -> cut_last xs tail -> cut_last (x :: xs) tail.
Proof.
  intros Hx H a y b E Hy. destruct a as [|z a]; injection E as -> E; [contradiction|]. eapply H; eauto.
Qed.
Lemma dialogue_partition s incoming evs s' : dialogue cfg s incoming evs s' ->
  exists xs tail, partition incoming evs xs tail /\ Forall (replies_ok P) xs /\ Forall content_ok xs.
Proof.
  induction 1 as [s tail Ht|s line rest evs s1 tr s2 Hl Hr D IH
    |s line wire evs c u m text rest evs' s1 tr s2 Hl Ho Htr Hd D IH|s line wire evs c u m text evs' s1 Hl Ho Hi Hd].
  - exists [], tail. split; [|split; constructor]. split; [reflexivity|]. split; [exact Ht|]. split; [reflexivity|].
    intros a x b E. destruct a; discriminate.
  - destruct IH as (xs & tail & (P1 & P2 & P3 & P4) & H1 & H2).
    destruct (reacts_exchange _ _ _ _ Hr) as [R1 R2].
    exists (XCommand line evs :: xs), tail. split; [|split; constructor; auto; now split].
    split; [cbn; now rewrite P1, <- !app_assoc|]. split; [exact P2|]. split; [cbn; now rewrite P3|].
    apply cut_last_cons; auto.
  - destruct IH as (xs & tail & (P1 & P2 & P3 & P4) & H1 & H2).
    destruct (transfer_split _ _ _ Htr) as (content & -> & Hc).
    inversion Ho; subst. inversion Hd; subst.
    exists (XMail line ([OFilterData u0 m0 Accept u m] ++ w) content text ([OHandle u m text [true] (Some (d, u'))] ++ w0) :: xs), tail.
    split; [|split; constructor; auto].
    + split; [cbn; now rewrite <- !app_assoc|]. split; [exact P2|].
      split; [cbn; now rewrite <- !app_assoc|]. apply cut_last_cons; auto.
    + split; (eapply says_one_reply; [|eauto|quiet]); [configured|].
      match goal with Y : yields _ _ _ (d, _, _) |- _ => pose proof (yields_replies P _ _ _ _ _ _ (ar_handle _ _ HP _ _ _) Y) as Hv end.
      destruct d; [apply HP|exact Hv].
    + split; [exact Hl|]. split; [assumption|]. split; [|split; [exact Hc|]].
      * apply Forall_app. split; [repeat constructor; assumption|eapply says_calls; eauto].
      * do 4 eexists. split; [reflexivity|]. eapply says_writes; eauto.
  - inversion Ho; subst. inversion Hd; subst.
    exists [XCut line ([OFilterData u0 m0 Accept u m] ++ w) wire text ([OHandle u m text [false] (Some (d, u'))] ++ w0)], [].
    split; [|split; constructor; auto].
    + split; [cbn; now rewrite !app_nil_r|]. split; [apply is_line_nil|].
      split; [cbn; now rewrite <- !app_assoc, app_nil_r|]. intros a x b E _. destruct a as [|? [|? ?]]; try discriminate.
      injection E as <- <-. auto.
    + split; (eapply says_one_reply; [|eauto|quiet]); [configured|].
      match goal with Y : yields _ _ _ (d, _, _) |- _ => pose proof (yields_replies P _ _ _ _ _ _ (ar_handle _ _ HP _ _ _) Y) as Hv end.
      destruct d; [apply HP|exact Hv].
    + split; [exact Hl|]. split; [assumption|]. split; [|split; [exact Hi|]].
      * apply Forall_app. split; [repeat constructor; assumption|eapply says_calls; eauto].
      * do 4 eexists. split; [reflexivity|]. eapply says_writes; eauto.
Qed.
End Partition.
