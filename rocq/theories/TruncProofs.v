(** The converse of PromptProofs.v: a session that waits for a line, and has not
    touched what comes later, has done the same as on what came before alone. *)
From Verif Require Import Bytes Nom SmtpString Message Reply Stream SpecData DataProofs DataLines StreamProofs
  NomLemmas SpecReply Interact InteractProofs SpecSession HandlerProofs LawfulProofs TraceProofs PropServer
  SpecPrompt PromptProofs.

Definition ev_text (evs : list event) : bytes := concat (map ev_bytes evs).
(** What is unread ends with [b]. *)
Definition rests (b : bytes) (p : prependable) : Prop := exists y, unread p = y ++ b.
Lemma unread_later p more : unread (later p more) = unread p ++ ev_text more.
Proof. unfold unread, src_bytes, ev_text. cbn. now rewrite map_app, concat_app, app_assoc. Qed.

Section Trunc.
Context {C U W : Type}.
Variable cfg : config C U.
Variable wr : writer W.
Notation state := (@st C U W).
Hypothesis Hd : drain_mail cfg.

(** Only the mail handler reads. *)
Definition reads_or_not (f : state -> outcome unit * state) (more : list event) (s : state) : Prop :=
  (st_reader (snd (f s)) = st_reader s /\ st_reader (snd (f (later_st s more))) = later (st_reader s) more)
  \/ exists m z, st_reader z = st_reader s /\ f s = receive_mail cfg wr m z /\ f (later_st s more) = receive_mail cfg wr m (later_st z more).
Lemma reply_keeps reply (s : state) : st_reader (snd (send_reply wr reply s)) = st_reader s.
Proof.
  destruct (send_reply wr reply s) as [o s'] eqn:E. destruct (send_reply_weak _ _ _ _ _ E) as ((_ & _ & _ & S4) & _). exact S4.
Qed.
Lemma reply_set_keeps reply m (s : state) : st_reader (snd (andthen (send_reply wr reply s) (fun _ y => (Ret tt, set_mail y m)))) = st_reader s.
Proof. pose proof (reply_keeps reply s) as H. destruct (send_reply wr reply s) as [[a| | |] x]; exact H. Qed.
Lemma line_reads more line (s : state) : reads_or_not (handle_line cfg wr line) more s.
Proof.
  unfold reads_or_not, handle_line. destruct (command_parse line) as [cmd| | | |]; try (left; split; apply reply_keeps); [|left; split; reflexivity].
  destruct cmd; try (left; split; apply reply_keeps).
  - change (reads_or_not (handle_data_cmd cfg wr) more s). unfold reads_or_not, handle_data_cmd. change (st_mail (later_st s more)) with (st_mail s).
    destruct (st_mail s) as [m|]; [|left; split; apply reply_keeps]. cbv zeta.
    change (st_cfg (set_mail (later_st s more) None)) with (st_cfg s). change (st_user (set_mail (later_st s more) None)) with (st_user s).
    change (st_cfg (set_mail s None)) with (st_cfg s). change (st_user (set_mail s None)) with (st_user s).
    destruct (mm_to m); [left; split; rewrite reply_set_keeps; reflexivity|].
    destruct (cf_filter_data cfg (st_cfg s) (st_user s) m) as [[[[|code msg] c] u] m']; [|left; split; rewrite reply_set_keeps; reflexivity].
    set (x := log (set_cu (set_mail s None) c u) _).
    change (log (set_cu (set_mail (later_st s more) None) c u) (OFilterData (st_user s) m Accept u m')) with (later_st x more).
    change (st_cfg (later_st x more)) with (st_cfg x). rewrite (reply_later more wr).
    pose proof (reply_keeps (cf_data_okay cfg (st_cfg x)) x) as Hk. change (st_reader x) with (st_reader s) in Hk.
    destruct (send_reply wr (cf_data_okay cfg (st_cfg x)) x) as [[[]| | |] z]; cbn [lift fst snd andthen] in *;
      [|left; split; [exact Hk|cbn; now rewrite Hk]..].
    right. now exists m', z.
  - left. unfold handle_mail_cmd. change (st_mail (later_st s more)) with (st_mail s). destruct (st_mail s) as [m|]; [split; apply reply_keeps|].
    cbv zeta. cbn [later_st set_reader set_cfg st_cfg st_user log].
    destruct (cf_filter_from cfg _ _ _) as [[[[|code msg] c] u] from']; split; try (rewrite reply_set_keeps; reflexivity); rewrite reply_keeps; reflexivity.
  - left. unfold handle_rcpt_cmd. change (st_mail (later_st s more)) with (st_mail s). destruct (st_mail s) as [m|]; [|split; apply reply_keeps].
    cbv zeta. cbn [later_st set_reader st_cfg st_user].
    destruct (cf_filter_to cfg _ _ _ _) as [[[[[|code msg] c] u] m'] to']; split; rewrite reply_keeps; reflexivity.
Qed.
Lemma receive_reader m (z : state) : exists text ok p, st_reader (snd (receive_mail cfg wr m z)) = p
  /\ ((ok = true /\ transfer (unread (st_reader z)) text (unread p) /\ src_ended (pr_stream p) = src_ended (pr_stream (st_reader z)))
      \/ (ok = false /\ interrupted (unread (st_reader z)) text /\ unread p = [] /\ src_ended (pr_stream p) = true)).
Proof.
  unfold receive_mail. destruct (run_drains_new _ (st_reader z) (Hd (st_cfg z) (st_user z) m)) as (r & text & ok & d' & Er & _ & Hc & Hm).
  rewrite Er. destruct r as [[v c'] u']. unfold ds_was_completed. rewrite Hc. cbv zeta. exists text, ok, (ds_source d'). split.
  - destruct v; rewrite reply_keeps; reflexivity.
  - destruct Hm as [(-> & M0 & _ & M1)|(-> & M0 & M1 & _ & _ & M2)]; [left|right]; auto.
Qed.
Lemma transfer_app wire text rest : transfer wire text rest -> exists y, wire = y ++ rest.
Proof. intros (ls & _ & _ & -> & _). eexists. now rewrite !app_assoc. Qed.
Lemma transfer_cut wire text y b : transfer (wire ++ b) text (y ++ b) -> transfer wire text y.
Proof.
  intros (ls & H1 & H2 & H3 & H4). exists ls. split; [exact H1|]. split; [exact H2|]. split; [|exact H4].
  rewrite !app_assoc in H3. apply app_inv_tail in H3. now rewrite <- !app_assoc in H3.
Qed.
Lemma line_rests b line (s s' : state) : handle_line cfg wr line s = (Ret tt, s') -> shut s' = false -> rests b (st_reader s') -> rests b (st_reader s).
Proof.
  intros E Hs [y H]. destruct (line_reads [] line s) as [[Hr _]|(m & z & Hz & Er & _)].
  - rewrite E in Hr. cbn in Hr. rewrite <- Hr. now exists y.
  - destruct (receive_reader m z) as (text & ok & p & Ep & Hp). rewrite <- Er, E in Ep. cbn in Ep. subst p. rewrite Hz in Hp.
    destruct Hp as [(_ & Ht & _)|(_ & _ & _ & Hp)]; [|unfold shut in Hs; congruence]. destruct (transfer_app _ _ _ Ht) as [y' Ey]. unfold rests. rewrite Ey, H. exists (y' ++ y). apply app_assoc.
Qed.
Lemma line_truncates more line (s s' : state) : handle_line cfg wr line (later_st s more) = (Ret tt, s') -> shut s = false -> shut s' = false ->
  rests (ev_text more) (st_reader s') ->
  exists s1, handle_line cfg wr line s = (Ret tt, s1) /\ s' = later_st s1 more /\ shut s1 = false.
Proof.
  intros E H0 Hs [y H]. assert (Hsh : shut (snd (handle_line cfg wr line s)) = false).
  { destruct (line_reads more line s) as [[Hr _]|(m & z & Hz & Er & El)]; [unfold shut in *; now rewrite Hr|].
    unfold shut. rewrite Er. destruct (receive_reader m z) as (text & ok & p & -> & [(_ & _ & ->)|(_ & Hi & _)]); [now rewrite Hz|exfalso].
    destruct (receive_reader m (later_st z more)) as (text2 & ok2 & p2 & Ep & Hp). rewrite <- El, E in Ep. cbn [snd] in Ep. subst p2.
    destruct Hp as [(_ & Ht & _)|(_ & _ & _ & Hp)]; [|unfold shut in Hs; congruence].
    change (st_reader (later_st z more)) with (later (st_reader z) more) in Ht. rewrite unread_later, H in Ht. apply transfer_cut in Ht.
    apply dec_transfer in Ht. apply dec_interrupted in Hi. congruence. }
  destruct (line_commutes more cfg wr line s) as [_ Hc]. specialize (Hc Hsh). rewrite E in Hc.
  destruct (handle_line cfg wr line s) as [o s1]. cbn [lift fst snd] in *. injection Hc as -> ->. now exists s1.
Qed.
Lemma next_line_truncates more p l p' : next_crlf_line (later p more) = (Line l, p') -> rests (ev_text more) p' ->
  exists p1, next_crlf_line p = (Line l, p1) /\ p' = later p1 more.
Proof.
  intros E [y H]. pose proof (next_crlf_line_ok p) as P. unfold StreamProofs.line_post in P. cbn [app] in P.
  destruct (next_crlf_line p) as [[l1| | |] p1] eqn:E1; try tauto.
  - rewrite (line_later more _ _ _ E1) in E. injection E as -> <-. now exists p1.
  - exfalso. destruct P as [P _]. pose proof (next_crlf_line_ok (later p more)) as Q. rewrite E in Q. cbn [StreamProofs.line_post app] in Q.
    destruct Q as (a & b & Q1 & _ & _ & Q2 & _). rewrite unread_later in Q1. rewrite H in Q2. subst b.
    rewrite !app_assoc in Q1. apply app_inv_tail in Q1. rewrite Q1 in P. rewrite <- app_assoc in P. apply P. now exists a, y.
Qed.
Lemma next_line_rests b p l p' : next_crlf_line p = (Line l, p') -> rests b p' -> rests b p.
Proof.
  intros E [y H]. pose proof (next_crlf_line_ok p) as Q. rewrite E in Q. cbn [StreamProofs.line_post app] in Q.
  destruct Q as (a & b' & Q1 & _ & _ & Q2 & _). rewrite H in Q2. subst b'. exists (a ++ CRLF ++ y). now rewrite Q1, <- !app_assoc.
Qed.
Lemma lines_rests b : forall n (s s' : state), after_lines cfg wr n s = (Ret tt, s') -> shut s' = false -> rests b (st_reader s') -> rests b (st_reader s).
Proof.
  induction n as [|n IH]; intros s s' E Hs H; cbn [after_lines] in E; [now injection E as <-|].
  destruct (next_crlf_line (st_reader s)) as [[l| | |] p] eqn:El; try discriminate.
  destruct (handle_line cfg wr l (set_reader s p)) as [[[]| | |] s1] eqn:Eh; try discriminate. cbn [andthen] in E.
  assert (H1 : shut s1 = false). { destruct (shut s1) eqn:Es; [|reflexivity]. now rewrite (after_lines_shut _ _ _ _ _ _ E Es) in Hs. }
  eapply next_line_rests; [exact El|]. pose proof (line_rests b _ _ _ Eh H1 (IH _ _ E Hs H)) as Hr. exact Hr.
Qed.
Lemma lines_truncate more : forall n (s s' : state), after_lines cfg wr n (later_st s more) = (Ret tt, s') -> shut s' = false ->
  rests (ev_text more) (st_reader s') ->
  exists s1, after_lines cfg wr n s = (Ret tt, s1) /\ s' = later_st s1 more.
Proof.
  induction n as [|n IH]; intros s s' E Hs H; cbn [after_lines] in E |- *; [injection E as <-; now exists s|].
  change (st_reader (later_st s more)) with (later (st_reader s) more) in E.
  destruct (next_crlf_line (later (st_reader s) more)) as [[l| | |] p] eqn:El; try discriminate.
  destruct (handle_line cfg wr l (set_reader (later_st s more) p)) as [[[]| | |] s1] eqn:Eh; try discriminate. cbn [andthen] in E.
  assert (H1 : shut s1 = false). { destruct (shut s1) eqn:Es; [|reflexivity]. now rewrite (after_lines_shut _ _ _ _ _ _ E Es) in Hs. }
  pose proof (lines_rests _ _ _ _ E Hs H) as R1. pose proof (line_rests _ _ _ _ Eh H1 R1) as R2. cbn [set_reader st_reader] in R2.
  destruct (next_line_truncates _ _ _ _ El R2) as (p1 & -> & ->).
  change (set_reader (later_st s more) (later p1 more)) with (later_st (set_reader s p1) more) in Eh.
  destruct (line_truncates more l (set_reader s p1) s1 Eh) as (s2 & E2 & -> & _); [|exact H1|exact R1|].
  { destruct (shut (set_reader s p1)) eqn:Es; [|reflexivity].
    destruct (line_commutes [] cfg wr l (later_st (set_reader s p1) more)) as [V _]. rewrite Eh in V. cbn [snd] in V. rewrite V in H1; [discriminate|exact Es]. }
  rewrite E2. cbn [andthen]. now apply IH.
Qed.
(** A session that waits for a line of which [T] has come. *)
Lemma waiting_ends n evs more w c u (s : state) : waits_after cfg wr n (src_of (evs ++ more)) w c u s -> shut s = false ->
  (exists T, src_events (pr_stream (st_reader s)) = T ++ more
     /\ is_line (match pr_prepended (st_reader s) with Some b => b | None => [] end ++ ev_text T)) ->
  exists s', interact cfg wr (src_of evs) w c u = (Ret tt, s')
  /\ st_trace s' = st_trace s /\ st_cfg s' = st_cfg s /\ st_user s' = st_user s /\ st_mail s' = st_mail s /\ st_w s' = st_w s /\ st_with s' = st_with s.
Proof.
  intros H Hs (T & HT & Hl). 
  assert (G : exists s1, waits_after cfg wr n (src_of evs) w c u s1 /\ s = later_st s1 more).
  { unfold waits_after in *. set (s0 := St c u None (prep_new (src_of evs)) w None []) in *.
    change (St c u None (prep_new (src_of (evs ++ more))) w None []) with (later_st s0 more) in H.
    rewrite reply_later in H. destruct (send_reply wr (cf_welcome_banner cfg c) s0) as [[[]| | |] s1]; try discriminate.
    cbn [andthen lift fst snd] in *. apply lines_truncate; [exact H|exact Hs|].
    exists (match pr_prepended (st_reader s) with Some b => b | None => [] end ++ ev_text T). unfold unread, src_bytes, ev_text. rewrite HT, map_app, concat_app.
    now rewrite app_assoc. }
  destruct G as (s1 & G & ->). clear H.
  assert (L : exists p, next_crlf_line (st_reader s1) = (NoLine, p)).
  { cbn in HT. apply app_inv_tail in HT. change (st_reader (later_st s1 more)) with (later (st_reader s1) more) in Hl. cbn in Hl. rewrite <- HT in Hl.
    pose proof (next_crlf_line_ok (st_reader s1)) as P. cbn [app] in P. destruct (next_crlf_line (st_reader s1)) as [[l| | |] p]; cbn in P; try tauto; [exfalso|now exists p].
    destruct P as (a & b & P & _). apply Hl. exists a, b. exact P. }
  destruct L as [p L]. pose proof (C35_sessions_end C U W cfg wr (src_of evs) w c u) as F. exists (set_reader s1 p). split; [|now repeat split].
  unfold waits_after, interact in *. destruct (send_reply wr (cf_welcome_banner cfg c) _) as [[[]| | |] s0] eqn:E0; try discriminate. cbn [andthen] in *.
  set (f := S (prep_size (st_reader s0))) in *. destruct (Nat.lt_ge_cases f n) as [Lt|Lt]; [elim F; exact (loop_no_fuel _ _ _ _ _ _ G Lt)|].
  rewrite (loop_after_lines _ _ _ _ _ _ G Lt) in F |- *. destruct (f - n) as [|g]; [now elim F|]. cbn [interact_loop]. now rewrite L.
Qed.
End Trunc.
