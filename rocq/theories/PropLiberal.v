(** C75: a message that is relayed, at a receiver that takes a bare line feed for a line end. *)
From Verif Require Import Bytes Stream SpecData DataLines SinkProofs PropData SpecLiberal LiberalProofs.

(** What such a receiver takes as the message is determined. *)
Theorem C75_one_end : forall w ls r ls' r',
  liberal_transfer w ls r -> liberal_transfer w ls' r' -> ls = ls' /\ r = r'.
Proof. exact liberal_unique. Qed.

(** What [DataSink] sends for a message: the receiver finds an end, at the latest where the
    message ends; before it exactly if the message hides one. *)
Theorem C75_where_it_ends : forall ok ms s sent out next,
  sink_send_all ok sink_new ms = (s, SkOk) -> sink_end ok s = (sent, SkOk) ->
  normalised (concat ms) out ->
  exists ls rest, liberal_transfer (concat sent ++ next) ls rest
    /\ (exists kept, rest = kept ++ next)
    /\ (rest = next <-> ~ hidden_end out).
Proof.
  intros ok ms s sent out next Hs He Hn.
  destruct (encoding_normal _ _ _ (C06_sink_output_exact ok ms s sent Hs He) Hn) as (L & F & -> & ->).
  destruct (encoding_lines L F) as (Q & FQ & EQ & ->). rewrite EQ.
  rewrite <- !app_assoc.
  destruct (first_end (stuffed true Q) next (stuffed_lf_lines true Q FQ)) as (ls & rest & T & P & R & _).
  exists ls, rest. split; [exact T |]. split; [exact P |].
  rewrite R, stuffed_end, hidden_bare by assumption. tauto.
Qed.

(** A message whose line feeds all have their carriage return is received whole by everybody. *)
Theorem C75_crlf_is_safe : forall ok ms s sent out next,
  sink_send_all ok sink_new ms = (s, SkOk) -> sink_end ok s = (sent, SkOk) ->
  normalised (concat ms) out -> no_bare_lf (concat ms) ->
  exists ls, liberal_transfer (concat sent ++ next) ls next /\ liberal_text ls = out.
Proof.
  intros ok ms s sent out next Hs He Hn Hb. apply (no_bare_normal _ _ Hn) in Hb.
  destruct (encoding_normal _ _ _ (C06_sink_output_exact ok ms s sent Hs He) Hn) as (L & F & -> & ->).
  destruct (encoding_lines L F) as (Q & FQ & EQ & ->). rewrite EQ in *. apply (no_bare_ends Q FQ) in Hb.
  rewrite <- !app_assoc.
  destruct (first_end (stuffed true Q) next (stuffed_lf_lines true Q FQ)) as (ls & rest & T & P & R & K).
  assert (N : ~ Exists liberal_end (stuffed true Q)) by (rewrite stuffed_end; apply no_hidden; auto).
  apply R in N as E. apply K in N. subst. exists (stuffed true Q). split; [exact T |].
  rewrite stuffed_all, liberal_text_crlf; auto.
Qed.

(** A command line as its author writes it. *)
Definition plain_line (l : bytes) : Prop := lf_line l /\ forall l', l <> DOT :: l'.
(** The way round it: whatever the commands, there is a message that this server receives from
    its client as one message, and that, sent on with [DataSink], makes such a receiver take
    the commands for commands of the sender. *)
Theorem C75_smuggling : forall cmds, Forall plain_line cmds ->
  exists wire m,
    (forall p rest, unread p = wire ++ rest ->
       exists items d', ds_session (ds_new p) = (Some items, CompleteOk, d') /\ concat items = m) /\
    forall ok ms s sent next, concat ms = m ->
      sink_send_all ok sink_new ms = (s, SkOk) -> sink_end ok s = (sent, SkOk) ->
      exists ls, liberal_transfer (concat sent ++ next) ls (unlines cmds ++ end_line ++ CRLF ++ next).
Proof.
  intros cmds F.
  assert (FL : Forall is_line cmds).
  { eapply Forall_impl; [| exact F]. intros l (H & _) (u & v & E). apply H. rewrite E.
    apply in_or_app. right. right. left. reflexivity. }
  assert (FS : map dot_stuff cmds = cmds /\ map dot_unstuff cmds = cmds).
  { clear FL. induction F as [| l ls (_ & H) F (IH1 & IH2)]; auto. cbn [map]. rewrite IH1, IH2.
    destruct l as [| c l]; auto. cbn [dot_stuff dot_unstuff]. destruct (N.eqb_spec c DOT) as [-> | NE]; auto.
    exfalso; eapply H; eauto. }
  destruct FS as (FS & FU).
  assert (H0 : is_line [LF; DOT]).
  { intros (u & v & E). apply (f_equal (@length N)) in E as El. rewrite !app_length in El. cbn in El.
    destruct u as [| x u]; [discriminate |]. destruct u; cbn in *; [discriminate | lia]. }
  exists (unlines ([LF; DOT] :: cmds) ++ end_line ++ CRLF), (unlines ([LF; DOT] :: cmds)). split.
  - intros p rest Hp.
    assert (T : transfer (unread p) (unlines ([LF; DOT] :: cmds)) rest).
    { rewrite Hp. exists ([LF; DOT] :: cmds). repeat split.
      - constructor; auto.
      - constructor; [discriminate |]. eapply Forall_impl; [| exact F]. intros l (_ & H). apply H.
      - rewrite <- !app_assoc. reflexivity.
      - cbn [map]. rewrite FU. reflexivity. }
    destruct (C01_data_decoding_exact p) as (items & c & d' & Es & Hc & Ho).
    exists items, d'. split; [| eapply Ho; eauto]. rewrite Es. f_equal. f_equal. apply Hc. eauto.
  - intros ok ms s sent next Em Hs He.
    assert (E : concat sent = unlines ([LF; DOT] :: cmds) ++ end_line ++ CRLF).
    { eapply C06_encoding_unique; [eapply C06_sink_output_exact; eauto |].
      rewrite Em. exists ([LF; DOT] :: cmds), []. repeat split.
      - constructor; auto.
      - apply is_line_nil.
      - rewrite app_nil_r. reflexivity.
      - cbn [map dot_stuff]. rewrite FS. reflexivity. }
    rewrite E. exists [[]]. exists [DOT; CR]. repeat split.
    + constructor; auto. intros [].
    + constructor; auto. intros [H | H]; discriminate.
    + right; reflexivity.
    + rewrite unlines_cons, <- !app_assoc. reflexivity.
Qed.

(** The receiver of this crate does not do so ([C01]): for the same bytes it finds the end
    where the sender put it. *)
Example C75_smuggled_mail :
  let cmds := [s2b "MAIL FROM:<admin@example.org>"; s2b "RCPT TO:<victim@example.org>"; s2b "DATA"; s2b "Trust me."] in
  Forall plain_line cmds /\ hidden_end ([LF; DOT] ++ CRLF ++ unlines cmds).
Proof.
  split.
  - repeat constructor; unfold lf_line; try (intros l'; discriminate); cbn; intuition discriminate.
  - exists [], (CRLF ++ unlines [s2b "MAIL FROM:<admin@example.org>"; s2b "RCPT TO:<victim@example.org>"; s2b "DATA"; s2b "Trust me."]), (unlines [s2b "MAIL FROM:<admin@example.org>"; s2b "RCPT TO:<victim@example.org>"; s2b "DATA"; s2b "Trust me."]).
    split; [reflexivity |]. split; [intros ([| ? ?] & H); discriminate | auto].
Qed.
(** Bare line feeds as such do no harm to where a message ends. *)
Example C75_harmless : ~ hidden_end (s2b "a" ++ [LF] ++ s2b ".b" ++ CRLF ++ s2b "." ++ CRLF) /\
  ~ no_bare_lf (s2b "a" ++ [LF] ++ s2b ".b" ++ CRLF ++ s2b "." ++ CRLF).
Proof.
  split.
  - change (s2b "a" ++ [LF] ++ s2b ".b" ++ CRLF ++ s2b "." ++ CRLF)
      with (lf_lines [s2b "a"; s2b ".b" ++ [CR]; s2b "." ++ [CR]]).
    rewrite hidden_bare, <- stuffed_end.
    + intros H. vm_compute in H. repeat (inversion H as [? ? [K | K] | ? ? K]; subst; [discriminate K.. |]; clear H; rename K into H).
      inversion H.
    + repeat constructor; unfold lf_line; cbn; intuition discriminate.
  - intros H. destruct (H (s2b "a") (s2b ".b" ++ CRLF ++ s2b "." ++ CRLF) eq_refl) as (a & E).
    destruct a as [| ? [| ? ?]]; discriminate.
Qed.
(** The sender's side of it, with a sink that takes everything. *)
Example C75_sent : exists s sent,
  sink_send_all (fun _ _ => PutOk) sink_new [s2b "a" ++ [LF]; s2b "." ++ CRLF ++ s2b "QUIT"] = (s, SkOk)
  /\ sink_end (fun _ _ => PutOk) s = (sent, SkOk)
  /\ concat sent = s2b "a" ++ [LF] ++ s2b "." ++ CRLF ++ s2b "QUIT" ++ CRLF ++ s2b "." ++ CRLF
  /\ liberal_transfer (concat sent) [s2b "a"] (s2b "QUIT" ++ CRLF ++ s2b "." ++ CRLF).
Proof.
  do 2 eexists. split; [vm_compute; reflexivity |]. split; [vm_compute; reflexivity |]. split; [reflexivity |].
  exists [DOT; CR]. split; [| split; [| split; [right; reflexivity | reflexivity]]].
  - constructor; auto. unfold lf_line. cbn. intuition discriminate.
  - constructor; auto. intros [H | H]; discriminate.
Qed.
