(** Lemmas about the server model. *)
From Verif Require Import Bytes Nom SmtpString Message Reply Stream SpecData DataProofs DataLines StreamProofs
  NomLemmas SpecReply ReplyProofs Interact PropGrammar SpecSession.

Section Server.
Context {C U W : Type}.
Variable cfg : config C U.
Variable wr : writer W.
Notation state := (@st C U W).
Local Notation same_session := (@same_session C U W).

Lemma same_refl (s : state) : same_session s s.
Proof. repeat split. Qed.
Lemma same_trans (a b c : state) : same_session a b -> same_session b c -> same_session a c.
Proof. unfold same_session. intuition congruence. Qed.
Lemma same_w (s : state) w : same_session s (set_w s w).
Proof. repeat split. Qed.
Lemma same_with (s : state) b : same_session s (set_with s b).
Proof. repeat split. Qed.
Lemma same_log (s : state) o : same_session s (log s o).
Proof. repeat split. Qed.

Definition pend (s : state) : list bytes := match st_with s with Some b => [b] | None => [] end.
Fixpoint line_items (code : N) (chunks : list bytes) : list bytes :=
  match chunks with
  | [] => []
  | t :: ts => reply_send (ReplyLine code (match ts with [] => true | _ => false end) t) :: line_items code ts
  end.

Lemma with_poll_ok s :
  match with_poll wr s with
  | (Ret _, s') => same_session s s' /\ st_with s' = None
       /\ st_trace s' = st_trace s ++ map OWrite (pend s)
  | (WriteErr, s') => same_session s s' /\ st_trace s' = st_trace s
  | _ => False
  end.
Proof.
  unfold with_poll, pend. destruct (st_with s) as [b|] eqn:E.
  - destruct (w_send wr (st_w (set_with s None)) b) as [[|] w]; cbn; repeat split.
  - rewrite app_nil_r. repeat split. exact E.
Qed.
Lemma with_poll_ready_ok s :
  match with_poll_ready wr s with
  | (Ret _, s') => same_session s s' /\ st_with s' = None
       /\ st_trace s' = st_trace s ++ map OWrite (pend s)
  | (WriteErr, s') => same_session s s'
       /\ exists ws rest, pend s = ws ++ rest /\ st_trace s' = st_trace s ++ map OWrite ws
  | _ => False
  end.
Proof.
  unfold with_poll_ready. pose proof (with_poll_ok s) as P.
  destruct (with_poll wr s) as [[a| | |] s1]; cbn [andthen]; try tauto.
  - destruct P as (P1 & P2 & P3). destruct (w_ready wr (st_w s1)) as [[|] w].
    + split; [exact (same_trans _ _ _ P1 (same_w s1 w))|]. auto.
    + split; [exact (same_trans _ _ _ P1 (same_w s1 w))|]. exists (pend s), []. rewrite app_nil_r. auto.
  - destruct P as (P1 & P2). split; [exact P1|]. exists [], (pend s). cbn. rewrite app_nil_r. auto.
Qed.
Lemma with_poll_flush_ok s :
  match with_poll_flush wr s with
  | (Ret _, s') => same_session s s' /\ st_with s' = None
       /\ st_trace s' = st_trace s ++ map OWrite (pend s)
  | (WriteErr, s') => same_session s s'
       /\ exists ws rest, pend s = ws ++ rest /\ st_trace s' = st_trace s ++ map OWrite ws
  | _ => False
  end.
Proof.
  unfold with_poll_flush. pose proof (with_poll_ok s) as P.
  destruct (with_poll wr s) as [[a| | |] s1]; cbn [andthen]; try tauto.
  - destruct P as (P1 & P2 & P3). destruct (w_flush wr (st_w s1)) as [[|] w].
    + split; [exact (same_trans _ _ _ P1 (same_w s1 w))|]. auto.
    + split; [exact (same_trans _ _ _ P1 (same_w s1 w))|]. exists (pend s), []. rewrite app_nil_r. auto.
  - destruct P as (P1 & P2). split; [exact P1|]. exists [], (pend s). cbn. rewrite app_nil_r. auto.
Qed.
Lemma with_start_send_ok (s : state) r :
  with_start_send s r = (Ret tt, set_with s (Some (reply_send r))).
Proof.
  unfold with_start_send. rewrite reply_send_len. now rewrite Nat.ltb_irrefl.
Qed.

(** Sending the chunks: what was written is a prefix of what should be, all of
    it on success. *)
Definition send_post (s : state) (all : list bytes) (good : Prop) (r : outcome unit * state) : Prop :=
  let '(o, s') := r in
  same_session s s'
  /\ (exists ws rest, all = ws ++ rest /\ st_trace s' = st_trace s ++ map OWrite ws
      /\ (forall a, o = Ret a -> rest = []))
  /\ (forall a, o = Ret a -> st_with s' = None /\ good)
  /\ (good -> o <> Panic) /\ o <> NoFuel.

Lemma send_chunks_ok code : forall chunks s,
  Forall (fun t => length t <= 506) chunks ->
  send_post s (pend s ++ line_items code chunks) (Forall (Forall printable) chunks)
    (send_chunks wr code chunks s).
Proof.
  induction chunks as [|t ts IH]; intros s Hl; cbn [send_chunks line_items].
  - rewrite app_nil_r. pose proof (with_poll_flush_ok s) as P.
    destruct (with_poll_flush wr s) as [[a| | |] s1]; try tauto; unfold send_post.
    + destruct P as (P1 & P2 & P3). split; [exact P1|]. split; [|repeat split; auto; discriminate].
      exists (pend s), []. rewrite app_nil_r. auto.
    + destruct P as (P1 & ws & rest & P2 & P3). split; [exact P1|].
      split; [|repeat split; auto; discriminate].
      exists ws, rest. repeat split; auto. discriminate.
  - inversion Hl as [|? ? Ht Hts]; subst.
    set (last := match ts with [] => true | _ => false end).
    destruct (reply_build code last t) as [r|e] eqn:Eb.
    + apply build_inl in Eb. destruct Eb as (_ & Hp & ->).
      pose proof (with_poll_ready_ok s) as P.
      destruct (with_poll_ready wr s) as [[a| | |] s1]; cbn [andthen]; try tauto.
      * destruct P as (P1 & P2 & P3). rewrite with_start_send_ok. cbn [andthen].
        specialize (IH (set_with s1 (Some (reply_send (ReplyLine code last t)))) Hts).
        unfold send_post in IH |- *.
        destruct (send_chunks wr code ts _) as [o s2].
        destruct IH as (I1 & (ws & rest & I2 & I3 & I4) & I5 & I6 & I7).
        split. { eapply same_trans; [exact P1|]. eapply same_trans; [|exact I1]. apply same_with. }
        split.
        { exists (pend s ++ ws), rest. cbn [pend st_with set_with] in I2. rewrite <- app_assoc, <- I2.
          split; [reflexivity|]. split; [|exact I4]. rewrite I3. cbn [st_trace set_with]. rewrite P3.
          now rewrite map_app, app_assoc. }
        split. { intros b Hb. destruct (I5 b Hb) as [I8 I9]. split; [exact I8|]. now constructor. }
        split; [|exact I7]. intros Hg. apply I6. now inversion Hg.
      * destruct P as (P1 & ws & rest & P2 & P3). unfold send_post. split; [exact P1|]. split.
        { exists ws, (rest ++ line_items code (t :: ts)). rewrite P2, <- app_assoc.
          split; [reflexivity|]. split; [exact P3|]. discriminate. }
        repeat split; discriminate.
    + unfold send_post. split; [apply same_refl|]. split.
      { exists [], (pend s ++ line_items code (t :: ts)). cbn [map]. rewrite app_nil_r.
        split; [reflexivity|]. split; [reflexivity|]. discriminate. }
      split; [discriminate|]. split; [|discriminate].
      intros Hg. exfalso. inversion Hg as [|? ? Hp _]; subst. rewrite build_ok in Eb; auto. discriminate.
Qed.

Definition small (text : bytes) : Prop := (N.of_nat (length text) + 506 <= usize_max_plus_1)%N.
Lemma line_items_ok code : (code < 1000)%N -> forall ts, reply_lines code ts (line_items code ts).
Proof.
  intros Hc. induction ts as [|t ts IH]; [constructor|]. cbn [line_items]. destruct ts as [|t' ts].
  - apply reply_lines_last. now apply reply_send_wire.
  - apply reply_lines_more; [now apply reply_send_wire|exact IH].
Qed.

(** Without any hypothesis. *)
Lemma send_chunks_weak code : forall chunks s o s', send_chunks wr code chunks s = (o, s') ->
  same_session s s' /\ (exists ws, st_trace s' = st_trace s ++ map OWrite ws)
  /\ (forall a, o = Ret a -> st_with s' = None) /\ o <> NoFuel.
Proof.
  induction chunks as [|t ts IH]; intros s o s' H; cbn [send_chunks] in H.
  - pose proof (with_poll_flush_ok s) as P. rewrite H in P. destruct o; try tauto.
    + destruct P as (P1 & P2 & P3). repeat split; try apply P1; eauto. discriminate.
    + destruct P as (P1 & ws & rest & P2 & P3). repeat split; try apply P1; eauto; discriminate.
  - destruct (reply_build code _ t) as [r|e].
    + pose proof (with_poll_ready_ok s) as P.
      destruct (with_poll_ready wr s) as [[a| | |] s1]; cbn [andthen] in H; try tauto.
      * destruct P as (P1 & P2 & P3). rewrite with_start_send_ok in H. cbn [andthen] in H.
        apply IH in H. destruct H as (I1 & (ws & I2) & I3).
        split. { eapply same_trans; [exact P1|]. eapply same_trans; [|exact I1]. apply same_with. }
        split; [|exact I3]. exists (pend s ++ ws). rewrite I2. cbn [st_trace set_with].
        now rewrite P3, map_app, app_assoc.
      * injection H as <- <-. destruct P as (P1 & ws & rest & P2 & P3).
        repeat split; try apply P1; eauto; discriminate.
    + injection H as <- <-. split; [apply same_refl|]. split; [exists []; now rewrite app_nil_r|].
      split; discriminate.
Qed.
(** No line carrying a disallowed byte is ever handed to the writer. *)
Definition clean_line (code : N) (w : bytes) : Prop :=
  exists last t, Forall printable t /\ length t <= 506 /\ w = reply_send (ReplyLine code last t).
Lemma send_chunks_clean code : forall chunks s o s' ws, Forall (clean_line code) (pend s) ->
  send_chunks wr code chunks s = (o, s') -> st_trace s' = st_trace s ++ map OWrite ws ->
  Forall (clean_line code) ws.
Proof.
  assert (Hinj : forall (tr : list (obs U)) a b, tr ++ map OWrite a = tr ++ map OWrite b -> a = b).
  { intros tr a b H. apply app_inv_head in H. revert b H.
    induction a as [|x a IH]; intros [|y b] H; try discriminate; [reflexivity|].
    injection H as -> H. f_equal. auto. }
  assert (Hpre : forall (tr tr' : list (obs U)) a b ws, tr' = tr ++ map OWrite a -> a ++ b = ws ->
     forall vs, tr' = tr ++ map OWrite vs -> Forall (clean_line code) ws -> Forall (clean_line code) vs).
  { intros tr tr' a b ws -> <- vs H Hc. apply Hinj in H. subst. now apply Forall_app in Hc. }
  induction chunks as [|t ts IH]; intros s o s' vs Hc H Hvs; cbn [send_chunks] in H.
  - pose proof (with_poll_flush_ok s) as P. rewrite H in P. destruct o; try tauto.
    + destruct P as (P1 & P2 & P3). exact (Hpre _ _ (pend s) [] _ P3 (app_nil_r _) _ Hvs Hc).
    + destruct P as (P1 & ws & rest & P2 & P3). exact (Hpre _ _ ws rest _ P3 (eq_sym P2) _ Hvs Hc).
  - destruct (reply_build code _ t) as [r|e] eqn:Eb.
    + apply build_inl in Eb. destruct Eb as (Hl & Hp & ->). pose proof (with_poll_ready_ok s) as P.
      destruct (with_poll_ready wr s) as [[a| | |] s1]; cbn [andthen] in H; try tauto.
      * destruct P as (P1 & P2 & P3). rewrite with_start_send_ok in H. cbn [andthen] in H.
        destruct (send_chunks_weak _ _ _ _ _ H) as (_ & (ws & E) & _). pose proof (fun Hc => IH _ _ _ ws Hc H E) as IH'.
        cbn [st_trace set_with] in E. rewrite P3, <- app_assoc, <- map_app in E. rewrite E in Hvs.
        apply Hinj in Hvs. subst vs. apply Forall_app. split; [exact Hc|]. apply IH'.
        constructor; [|constructor]. do 2 eexists. eauto.
      * injection H as <- <-. destruct P as (P1 & ws & rest & P2 & P3). exact (Hpre _ _ ws rest _ P3 (eq_sym P2) _ Hvs Hc).
    + injection H as <- <-. replace vs with (@nil bytes); [constructor|].
      apply (Hinj (st_trace s)). now rewrite app_nil_r.
Qed.

(** The lines of a reply, as a function. *)
Definition reply_items (reply : N * bytes) : list bytes :=
  match byte_chunks (snd reply) 506 with Some chunks => line_items (fst reply) chunks | None => [] end.
Lemma reply_items_full reply : (fst reply < 1000)%N -> small (snd reply) ->
  full_reply (fst reply) (snd reply) (reply_items reply).
Proof.
  intros Hc Hs. unfold reply_items. destruct (byte_chunks_ok (snd reply) 506 eq_refl Hs) as (ps & -> & Hch).
  exists ps. split; [exact Hch|now apply line_items_ok].
Qed.
Lemma send_reply_ok reply s : st_with s = None -> small (snd reply) ->
  send_post s (reply_items reply) (Forall printable (snd reply)) (send_reply wr reply s).
Proof.
  intros Hw Hs. unfold send_reply, reply_items.
  destruct (byte_chunks_ok (snd reply) 506 eq_refl Hs) as (ps & E & Hch).
  change (N.of_nat MAX_LEN) with 506%N. rewrite E.
  pose proof (send_chunks_ok (fst reply) ps s) as P. unfold pend in P. rewrite Hw in P.
  rewrite <- (chunked_concat _ _ _ Hch).
  apply chunked_sizes in Hch; [|cbn; lia].
  specialize (P ltac:(eapply Forall_impl; [|exact Hch]; cbn; lia)).
  unfold send_post in *. destruct (send_chunks wr (fst reply) ps s) as [o s'].
  destruct P as (P1 & P2 & P3 & P4 & P5).
  assert (Hg : Forall (Forall printable) ps <-> Forall printable (concat ps)).
  { split; intros H.
    - now apply Forall_concat.
    - clear -H. induction ps as [|p ps IH]; constructor; cbn in H; apply Forall_app in H; tauto. }
  split; [exact P1|]. split; [exact P2|].
  split; [intros a Ha; destruct (P3 a Ha); split; [assumption|now apply Hg]|].
  split; [intros Hc; apply P4; now apply Hg|exact P5].
Qed.
Lemma send_reply_weak reply s o s' : send_reply wr reply s = (o, s') ->
  same_session s s' /\ (exists ws, st_trace s' = st_trace s ++ map OWrite ws)
  /\ (forall a, o = Ret a -> st_with s' = None) /\ o <> NoFuel.
Proof.
  unfold send_reply. destruct (byte_chunks _ _); [apply send_chunks_weak|].
  intros H. injection H as <- <-. split; [apply same_refl|]. split; [exists []; now rewrite app_nil_r|].
  split; discriminate.
Qed.
Local Notation reliable := (reliable wr).
Lemma send_chunks_reliable code : reliable -> forall chunks (s : state), fst (send_chunks wr code chunks s) <> WriteErr.
Proof.
  intros (R1 & R2 & R3).
  assert (Hp : forall s : state, fst (with_poll wr s) <> WriteErr).
  { intros s. unfold with_poll. destruct (st_with s) as [b|]; [|discriminate]. cbv zeta.
    specialize (R2 (st_w (set_with s None)) b). destruct (w_send wr _ b) as [[|] w]; [discriminate|discriminate R2]. }
  induction chunks as [|t ts IH]; intros s; cbn [send_chunks].
  - unfold with_poll_flush. specialize (Hp s). destruct (with_poll wr s) as [[a| | |] s1]; cbn in *; try congruence.
    specialize (R3 (st_w s1)). destruct (w_flush wr (st_w s1)) as [[|] w]; [discriminate|discriminate R3].
  - destruct (reply_build code _ t) as [r|e]; [|discriminate].
    unfold with_poll_ready. specialize (Hp s).
    destruct (with_poll wr s) as [[a| | |] s1]; cbn [andthen fst] in *; try congruence.
    specialize (R1 (st_w s1)). destruct (w_ready wr (st_w s1)) as [[|] w]; [|discriminate R1].
    cbn [andthen]. rewrite with_start_send_ok. cbn [andthen]. apply IH.
Qed.
Lemma send_reply_reliable reply (s : state) : reliable -> fst (send_reply wr reply s) <> WriteErr.
Proof.
  intros R. unfold send_reply. destruct (byte_chunks _ _); [now apply send_chunks_reliable|discriminate].
Qed.
End Server.
