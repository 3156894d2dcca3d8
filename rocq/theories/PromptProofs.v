(** Nothing is read before it is needed. *)
From Verif Require Import Bytes Nom SmtpString Message Reply Stream SpecData DataProofs DataLines StreamProofs
  Interact InteractProofs SpecSession HandlerProofs LawfulProofs SpecPrompt.

Section Later.
Variable more : list event.
Notation L p := (later p more).
Notation LD d := (later_ds d more).

Lemma prep_poll_later p r p' : prep_poll p = (r, p') -> r <> Ready None -> prep_poll (L p) = (r, L p').
Proof.
  destruct p as [[evs en ov] [b|]]; unfold prep_poll, later; cbn [pr_prepended pr_stream].
  - intros H _. injection H as <- <-. reflexivity.
  - unfold src_poll. cbn [src_events later_src]. destruct evs as [|[|b] evs]; cbn; intros H Hr;
      injection H as <- <-; [congruence|reflexivity|reflexivity].
Qed.
Lemma prep_poll_none p p' : prep_poll p = (Ready None, p') -> src_ended (pr_stream p') = true.
Proof.
  intros E. pose proof (prep_poll_ok p) as P. rewrite E in P. apply P.
Qed.
Lemma src_next_later : forall evs en ov b s', src_next evs en ov = (Some b, s') ->
  src_next (evs ++ more) en ov = (Some b, later_src s' more).
Proof.
  induction evs as [|[|b] evs IH]; intros en ov b' s' H; cbn in *; [discriminate|auto|].
  injection H as <- <-. reflexivity.
Qed.
Lemma prep_next_later p b p' : prep_next p = (Some b, p') -> prep_next (L p) = (Some b, L p').
Proof.
  destruct p as [[evs en ov] [x|]]; unfold prep_next, later; cbn [pr_prepended pr_stream].
  - intros H. injection H as <- <-. reflexivity.
  - cbn [src_events src_ended src_over later_src].
    destruct (src_next evs en ov) as [[b'|] s'] eqn:E; intros H; [|discriminate]. injection H as <- <-.
    rewrite (src_next_later _ _ _ _ _ E). reflexivity.
Qed.
Lemma prepend_later p x p' : prep_prepend p x = Some p' -> prep_prepend (L p) x = Some (L p').
Proof. destruct p as [s [y|]]; cbn; [discriminate|]. intros H. injection H as <-. reflexivity. Qed.
Lemma prepend_later_none p x : prep_prepend p x = None -> prep_prepend (L p) x = None.
Proof. destruct p as [s [y|]]; cbn; [reflexivity|discriminate]. Qed.

(** Lines. *)
Lemma line_loop_later : forall f f' p buf l p', next_crlf_line_loop f p buf = (Line l, p') -> f <= f' ->
  next_crlf_line_loop f' (L p) buf = (Line l, L p').
Proof.
  induction f as [|f IH]; intros f' p buf l p' H Hf; [discriminate|]. destruct f' as [|f']; [lia|].
  cbn [next_crlf_line_loop] in *. destruct (prep_next p) as [[b|] q] eqn:E.
  - rewrite (prep_next_later _ _ _ E). cbv zeta in *. destruct (find_sub CRLF (buf ++ b)) as [pos|].
    + destruct (prep_prepend q (skipn (pos + 2) (buf ++ b))) as [q'|] eqn:Ep; [|discriminate].
      rewrite (prepend_later _ _ _ Ep). injection H as <- <-. reflexivity.
    + apply IH; [exact H|lia].
  - destruct (prep_prepend q buf); discriminate.
Qed.
Lemma line_later p l p' : next_crlf_line p = (Line l, p') -> next_crlf_line (L p) = (Line l, L p').
Proof.
  unfold next_crlf_line. intros H. eapply line_loop_later; [exact H|]. cbn. rewrite app_length. lia.
Qed.

(** The stream of a message. *)
Definition closed (d : datastream) : bool := src_ended (pr_stream (ds_source d)).
Lemma iter_later d r d' : ds_iter d = (r, d') -> ds_iter (LD d) = (r, LD d').
Proof.
  unfold ds_iter, later_ds. cbn [ds_st ds_buf ds_source]. destruct (find_split (ds_st d) (ds_buf d)) as [st' [|x|x|x]].
  - destruct (ds_buf d); intros H; injection H as <- <-; reflexivity.
  - cbv zeta. destruct (firstn x (ds_buf d)); intros H; injection H as <- <-; reflexivity.
  - cbv zeta. destruct (firstn x (ds_buf d)); intros H; injection H as <- <-; reflexivity.
  - destruct (0 <? x); intros H; injection H as <- <-; reflexivity.
Qed.
Lemma iter_source d : ds_source (snd (ds_iter d)) = ds_source d.
Proof.
  unfold ds_iter. destruct (find_split (ds_st d) (ds_buf d)) as [st' [|x|x|x]].
  - now destruct (ds_buf d).
  - cbv zeta. now destruct (firstn x (ds_buf d)).
  - cbv zeta. now destruct (firstn x (ds_buf d)).
  - now destruct (0 <? x).
Qed.
Lemma poll_loop_later : forall f f' d r d', ds_poll_loop f d = (r, d') -> f <= f' -> r <> DFuel ->
  (closed d = true -> closed d' = true)
  /\ (closed d' = false -> ds_poll_loop f' (LD d) = (r, LD d')).
Proof.
  induction f as [|f IH]; intros f' d r d' H Hf Hr; [injection H as <- <-; congruence|].
  destruct f' as [|f']; [lia|]. cbn [ds_poll_loop] in *.
  destruct (ds_iter d) as [x d1] eqn:E. rewrite (iter_later _ _ _ E).
  pose proof (iter_source d) as Es. rewrite E in Es. cbn [snd] in Es.
  assert (Ec : closed d1 = closed d) by (unfold closed; now rewrite Es).
  destruct x as [x| |].
  - injection H as <- <-. rewrite Ec. auto.
  - rewrite <- Ec. apply (IH f' d1); auto. lia.
  - cbn [later_ds ds_source ds_st ds_buf].
    pose proof (prep_poll_ok (ds_source d1)) as P.
    destruct (prep_poll (ds_source d1)) as [[|[b|]] p] eqn:Ep.
    + injection H as <- <-. unfold closed in *. cbn [ds_source]. destruct P as (_ & _ & _ & _ & ->). rewrite Ec.
      split; [auto|]. intros _. rewrite (prep_poll_later _ _ _ Ep) by discriminate. reflexivity.
    + destruct P as (_ & _ & _ & _ & P). rewrite (prep_poll_later _ _ _ Ep) by discriminate.
      destruct (IH f' _ _ _ H ltac:(lia) Hr) as [I1 I2]. split.
      * intros Hc. apply I1. unfold closed in *. cbn [ds_source]. now rewrite P, Ec.
      * exact I2.
    + injection H as <- <-. apply prep_poll_none in Ep. unfold closed. cbn [ds_source]. rewrite Ep. split; congruence.
Qed.
Lemma src_size_app a b : fold_right (fun e n => ev_size e + n) 0 (a ++ b) =
  fold_right (fun e n => ev_size e + n) 0 a + fold_right (fun e n => ev_size e + n) 0 b.
Proof. induction a as [|e a IH]; cbn; [reflexivity|]. rewrite IH. lia. Qed.
Lemma size_later d : ds_size d <= ds_size (LD d).
Proof.
  unfold ds_size, later_ds, prep_size, src_size. cbn. rewrite src_size_app. lia.
Qed.
Lemma poll_later d r d' : ds_poll d = (r, d') ->
  (closed d = true -> closed d' = true) /\ (closed d' = false -> ds_poll (LD d) = (r, LD d')).
Proof.
  intros H. pose proof (ds_poll_total d) as (_ & _ & T). rewrite H in T.
  unfold ds_poll in *. cbn [later_ds ds_st]. destruct (ds_st d);
    try (injection H as <- <-; auto; fail);
    (apply (poll_loop_later (S (ds_size d))); [exact H|pose proof (size_later d); lia|]; intros ->; exact T).
Qed.
Lemma next_loop_later : forall f f' d x d', ds_next_loop f d = (Some x, d') -> f <= f' ->
  (closed d = true -> closed d' = true)
  /\ (closed d' = false -> ds_next_loop f' (LD d) = (Some x, LD d')).
Proof.
  induction f as [|f IH]; intros f' d x d' H Hf; [discriminate|]. destruct f' as [|f']; [lia|].
  cbn [ds_next_loop] in *. destruct (ds_poll d) as [r d1] eqn:E. destruct (poll_later _ _ _ E) as [P1 P2].
  destruct r as [y| |]; [| |discriminate].
  - injection H as <- <-. split; [exact P1|]. intros Hc. now rewrite (P2 Hc).
  - destruct (IH f' _ _ _ H ltac:(lia)) as [I1 I2]. split; [auto|]. intros Hc.
    rewrite P2; [auto|]. destruct (closed d1); [|reflexivity]. rewrite I1 in Hc; auto.
Qed.
Lemma next_later d x d' : ds_next d = (Some x, d') ->
  (closed d = true -> closed d' = true) /\ (closed d' = false -> ds_next (LD d) = (Some x, LD d')).
Proof. unfold ds_next. intros H. eapply next_loop_later; [exact H|]. pose proof (size_later d). lia. Qed.
Lemma read_loop_later : forall f f' d items d', ds_read_loop f d = (Some items, d') -> f <= f' ->
  (closed d = true -> closed d' = true)
  /\ (closed d' = false -> ds_read_loop f' (LD d) = (Some items, LD d')).
Proof.
  induction f as [|f IH]; intros f' d items d' H Hf; [discriminate|]. destruct f' as [|f']; [lia|].
  cbn [ds_read_loop] in *. destruct (ds_next d) as [[x|] d1] eqn:E; [|discriminate].
  destruct (next_later _ _ _ E) as [P1 P2].
  destruct x as [b|].
  - destruct (ds_read_loop f d1) as [[r|] d2] eqn:Er; [|discriminate]. injection H as <- <-.
    destruct (IH f' _ _ _ Er ltac:(lia)) as [I1 I2]. split; [auto|]. intros Hc.
    rewrite P2, I2; auto. destruct (closed d1); [|reflexivity]. rewrite I1 in Hc; auto.
  - injection H as <- <-. split; [exact P1|]. intros Hc. now rewrite (P2 Hc).
Qed.
Lemma until_later stop : forall f f' acc d r d', ds_read_until f stop acc d = (Some r, d') -> f <= f' ->
  (closed d = true -> closed d' = true)
  /\ (closed d' = false -> ds_read_until f' stop acc (LD d) = (Some r, LD d')).
Proof.
  induction f as [|f IH]; intros f' acc d r d' H Hf; cbn [ds_read_until] in H.
  - destruct (stop acc) eqn:Es; [|discriminate]. injection H as <- <-. split; [auto|]. intros _.
    destruct f'; cbn [ds_read_until]; now rewrite Es.
  - destruct f' as [|f']; [lia|]. cbn [ds_read_until]. destruct (stop acc).
    { injection H as <- <-. auto. }
    destruct (ds_next d) as [[x|] d1] eqn:E; [|discriminate]. destruct (next_later _ _ _ E) as [P1 P2].
    destruct x as [b|].
    + destruct (IH f' _ _ _ _ H ltac:(lia)) as [I1 I2]. split; [auto|]. intros Hc.
      rewrite P2, I2; auto. destruct (closed d1); [|reflexivity]. rewrite I1 in Hc; auto.
    + injection H as <- <-. split; [exact P1|]. intros Hc. now rewrite (P2 Hc).
Qed.
Lemma complete_later d r d' : ds_complete d = (r, d') ->
  closed d' = closed d /\ ds_complete (LD d) = (r, LD d').
Proof.
  unfold ds_complete. cbn [later_ds ds_st ds_buf]. destruct (ds_st d) eqn:Es; intros H;
    try (injection H as <- <-; split; [reflexivity|]; unfold later_ds; now rewrite Es).
  - destruct (ds_buf d) as [|c b] eqn:Eb.
    { injection H as <- <-. split; reflexivity. }
    destruct (prep_prepend (ds_source d) (c :: b)) as [p|] eqn:Ep; injection H as <- <-.
    + change (ds_source (LD d)) with (L (ds_source d)). rewrite (prepend_later _ _ _ Ep). apply prep_size_prepend in Ep. unfold closed. cbn [ds_source].
      destruct Ep as (_ & _ & _ & ->). split; reflexivity.
    + change (ds_source (LD d)) with (L (ds_source d)). rewrite (prepend_later_none _ _ Ep). split; [reflexivity|]. unfold later_ds. now rewrite Es, Eb.
Qed.
Lemma session_later p items c d' : ds_session (ds_new p) = (Some items, c, d') -> closed d' = false ->
  ds_session (ds_new (L p)) = (Some items, c, LD d').
Proof.
  unfold ds_session, ds_read_all. destruct (ds_read_loop _ (ds_new p)) as [x d1] eqn:E.
  destruct (ds_complete d1) as [r d2] eqn:Ec. intros H Hc. injection H as -> -> ->.
  destruct (complete_later _ _ _ Ec) as [C1 C2]. rewrite C1 in Hc.
  change (ds_new (L p)) with (LD (ds_new p)).
  destruct (read_loop_later _ (S (ds_size (LD (ds_new p)))) _ _ _ E) as [_ R]; [pose proof (size_later (ds_new p)); lia|].
  rewrite (R Hc), C2. reflexivity.
Qed.
Lemma handler_later {C U} : forall (h : handler C U) d data cs r data' cs' d',
  run_handler h d data cs = (r, data', cs', d') ->
  (closed d = true -> closed d' = true)
  /\ (closed d' = false -> run_handler h (LD d) data cs = (r, data', cs', LD d')).
Proof.
  induction h as [stop f IH|g IH|q IH|v c u]; intros d data cs r data' cs' d' H; cbn [run_handler] in *.
  - destruct (ds_read_until_total stop (S (ds_size d)) [] d ltac:(lia)) as (items & ov & d1 & E & _).
    rewrite E in H. destruct (until_later stop _ (S (ds_size (LD d))) _ _ _ _ E) as [U1 U2];
      [pose proof (size_later d); lia|].
    destruct (IH _ _ _ _ _ _ _ _ _ H) as [I1 I2]. split; [auto|]. intros Hc.
    rewrite U2; [auto|]. destruct (closed d1); [|reflexivity]. rewrite I1 in Hc; auto.
  - destruct (ds_complete d) as [x d1] eqn:E. destruct (complete_later _ _ _ E) as [C1 C2]. rewrite C2, <- C1.
    destruct x; try (now apply IH). injection H as <- <- <- <-. auto.
  - pose proof (ds_poll_total d) as (_ & _ & T). destruct (ds_poll d) as [x d1] eqn:E. destruct (poll_later _ _ _ E) as [P1 P2].
    destruct x as [x| |]; [| |destruct T].
    + destruct (IH _ _ _ _ _ _ _ _ H) as [I1 I2]. split; [auto|]. intros Hc.
      rewrite P2; [auto|]. destruct (closed d1); [|reflexivity]. rewrite I1 in Hc; auto.
    + destruct (IH _ _ _ _ _ _ _ _ H) as [I1 I2]. split; [auto|]. intros Hc.
      rewrite P2; [auto|]. destruct (closed d1); [|reflexivity]. rewrite I1 in Hc; auto.
  - injection H as <- <- <- <-. auto.
Qed.

(** Sessions. *)
Section Session.
Context {C U W : Type}.
Variable cfg : config C U.
Variable wr : writer W.
Notation state := (@st C U W).
Notation LS s := (later_st s more).
Definition lift {A} (r : outcome A * state) : outcome A * state := (fst r, LS (snd r)).
Definition shut (s : state) : bool := src_ended (pr_stream (st_reader s)).

Lemma lift_andthen {A B} (r : outcome A * state) (k : A -> state -> outcome B * state) :
  (forall a s, k a (LS s) = lift (k a s)) -> andthen (lift r) k = lift (andthen r k).
Proof. intros H. destruct r as [[a| | |] s]; cbn; auto. Qed.
Lemma with_poll_later (s : state) : with_poll wr (LS s) = lift (with_poll wr s).
Proof.
  unfold with_poll. change (st_with (LS s)) with (st_with s). destruct (st_with s) as [b|]; [|reflexivity].
  cbv zeta. change (st_w (set_with (LS s) None)) with (st_w s). change (st_w (set_with s None)) with (st_w s). destruct (w_send wr (st_w s) b) as [[|] w]; reflexivity.
Qed.
Lemma with_ready_later (s : state) : with_poll_ready wr (LS s) = lift (with_poll_ready wr s).
Proof.
  unfold with_poll_ready. rewrite with_poll_later. apply lift_andthen. intros a x.
  change (st_w (LS x)) with (st_w x). destruct (w_ready wr (st_w x)) as [[|] w]; reflexivity.
Qed.
Lemma with_flush_later (s : state) : with_poll_flush wr (LS s) = lift (with_poll_flush wr s).
Proof.
  unfold with_poll_flush. rewrite with_poll_later. apply lift_andthen. intros a x.
  change (st_w (LS x)) with (st_w x). destruct (w_flush wr (st_w x)) as [[|] w]; reflexivity.
Qed.
Lemma chunks_later code : forall chunks (s : state), send_chunks wr code chunks (LS s) = lift (send_chunks wr code chunks s).
Proof.
  induction chunks as [|t chunks IH]; intros s; cbn [send_chunks]; [apply with_flush_later|].
  destruct (reply_build code _ t) as [r|]; [|reflexivity].
  rewrite with_ready_later. apply lift_andthen. intros _ x.
  assert (E : with_start_send (LS x) r = lift (with_start_send x r)).
  { unfold with_start_send. destruct (_ <? _); reflexivity. }
  rewrite E. apply lift_andthen. intros _ y. apply IH.
Qed.
Lemma reply_later reply (s : state) : send_reply wr reply (LS s) = lift (send_reply wr reply s).
Proof. unfold send_reply. destruct (byte_chunks _ _); [apply chunks_later|reflexivity]. Qed.
Lemma reply_shut reply (s : state) : shut (snd (send_reply wr reply s)) = shut s.
Proof.
  destruct (send_reply wr reply s) as [o s'] eqn:E. cbn [snd].
  destruct (send_reply_weak _ _ _ _ _ E) as ((_ & _ & _ & S4) & _). unfold shut. now rewrite S4.
Qed.
Lemma then_shut reply (s : state) (k : unit -> state -> outcome unit * state) :
  (forall a x, shut (snd (k a x)) = shut x) -> shut (snd (andthen (send_reply wr reply s) k)) = shut s.
Proof.
  intros H. pose proof (reply_shut reply s) as R. destruct (send_reply wr reply s) as [[a| | |] x]; cbn [andthen snd] in *; auto.
  now rewrite H.
Qed.

Definition commutes (f : state -> outcome unit * state) (s : state) : Prop :=
  (shut s = true -> shut (snd (f s)) = true) /\ (shut (snd (f s)) = false -> f (LS s) = lift (f s)).
Lemma commutes_plain f s : f (LS s) = lift (f s) -> shut (snd (f s)) = shut s -> commutes f s.
Proof. intros H1 H2. split; [now rewrite H2|auto]. Qed.
Lemma commutes_reply reply s : commutes (send_reply wr reply) s.
Proof. apply commutes_plain; [apply reply_later|apply reply_shut]. Qed.

Lemma receive_later m (s : state) : commutes (receive_mail cfg wr m) s.
Proof.
  unfold commutes, receive_mail. cbn [later_st set_reader st_cfg st_user st_reader].
  change (ds_new (L (st_reader s))) with (LD (ds_new (st_reader s))).
  destruct (run_handler (cf_handle_mail cfg (st_cfg s) (st_user s) m) (ds_new (st_reader s)) [] []) as [[[r data] cs] d] eqn:E.
  destruct (handler_later _ _ _ _ _ _ _ _ E) as [H1 H2]. unfold closed in H1, H2. cbn [ds_new ds_source] in H1.
  assert (Hk : forall reply (x : state), st_reader x = ds_source d ->
    shut (snd (send_reply wr reply x)) = src_ended (pr_stream (ds_source d))).
  { intros reply x Hx. rewrite reply_shut. unfold shut. now rewrite Hx. }
  destruct r as [[[v c] u]| | |]; cbv zeta.
  - destruct (ds_was_completed d) eqn:Ew.
    + split.
      * intros Hs. destruct v; rewrite Hk by reflexivity; auto.
      * intros Hs. assert (Hc : src_ended (pr_stream (ds_source d)) = false).
        { destruct v; rewrite Hk in Hs by reflexivity; exact Hs. }
        rewrite (H2 Hc). change (ds_was_completed (LD d)) with (ds_was_completed d). rewrite Ew.
        cbn [later_ds ds_source]. destruct v; rewrite <- reply_later; reflexivity.
    + split; [exact H1|]. intros Hs. rewrite (H2 Hs). change (ds_was_completed (LD d)) with (ds_was_completed d).
      rewrite Ew. reflexivity.
  - split; [exact H1|]. intros Hs. rewrite (H2 Hs). reflexivity.
  - split; [exact H1|]. intros Hs. rewrite (H2 Hs). reflexivity.
  - split; [exact H1|]. intros Hs. rewrite (H2 Hs). reflexivity.
Qed.

Lemma line_commutes line (s : state) : commutes (handle_line cfg wr line) s.
Proof.
  unfold commutes, handle_line. destruct (command_parse line) as [cmd| | | |];
    try (apply commutes_reply); [|split; auto].
  assert (Hset : forall reply (x : state) m, 
     andthen (send_reply wr reply (LS x)) (fun _ y => (Ret tt, set_mail y m))
     = lift (andthen (send_reply wr reply x) (fun _ y => (Ret tt, set_mail y m)))).
  { intros. rewrite reply_later. apply lift_andthen. reflexivity. }
  assert (Hsh : forall reply (x : state) m, 
     shut (snd (andthen (send_reply wr reply x) (fun _ y => (Ret tt, set_mail y m)))) = shut x).
  { intros. apply then_shut. reflexivity. }
  assert (Haux : forall m' x, commutes (fun x : state =>
     andthen (send_reply wr (cf_data_okay cfg (st_cfg x)) x) (fun _ s => receive_mail cfg wr m' s)) x).
  { intros m' x. unfold commutes. change (st_cfg (LS x)) with (st_cfg x). rewrite reply_later.
    pose proof (reply_shut (cf_data_okay cfg (st_cfg x)) x) as R.
    destruct (send_reply wr (cf_data_okay cfg (st_cfg x)) x) as [[[]| | |] z]; cbn [lift fst snd andthen] in *;
      try (split; [rewrite R; auto|reflexivity]).
    destruct (receive_later m' z) as [V1 V2]. split; [|exact V2]. intros Hs. apply V1. rewrite R. exact Hs. }
  destruct cmd; try (apply commutes_reply).
  - (* DATA *)
    change (commutes (handle_data_cmd cfg wr) s).
    unfold commutes, handle_data_cmd. change (st_mail (LS s)) with (st_mail s).
    destruct (st_mail s) as [m|]; [|apply commutes_reply].
    cbv zeta. change (st_cfg (set_mail (LS s) None)) with (st_cfg s). change (st_user (set_mail (LS s) None)) with (st_user s).
    change (st_cfg (set_mail s None)) with (st_cfg s). change (st_user (set_mail s None)) with (st_user s).
    destruct (mm_to m).
    { split; [intros Hs; now rewrite Hsh|]. intros _. rewrite <- Hset. reflexivity. }
    destruct (cf_filter_data cfg (st_cfg s) (st_user s) m) as [[[d c] u] m']. destruct d as [|code msg].
    + exact (Haux m' (log (set_cu (set_mail s None) c u) (OFilterData (st_user s) m Accept u m'))).
    + split; [intros Hs; now rewrite Hsh|]. intros _. rewrite <- Hset. reflexivity.
  - (* MAIL *)
    apply commutes_plain; unfold handle_mail_cmd; change (st_mail (LS s)) with (st_mail s).
    + destruct (st_mail s) as [m|]; [apply reply_later|]. cbv zeta. cbn [later_st set_reader set_cfg st_cfg st_user log].
      destruct (cf_filter_from cfg _ _ _) as [[[d c] u] from']. destruct d; [rewrite <- Hset|rewrite <- reply_later]; reflexivity.
    + destruct (st_mail s) as [m|]; [apply reply_shut|]. cbv zeta. cbn [set_cfg st_cfg st_user log].
      destruct (cf_filter_from cfg _ _ _) as [[[d c] u] from']. destruct d; [rewrite Hsh|rewrite reply_shut]; reflexivity.
  - (* RCPT *)
    apply commutes_plain; unfold handle_rcpt_cmd; change (st_mail (LS s)) with (st_mail s).
    + destruct (st_mail s) as [m|]; [|apply reply_later]. cbv zeta. cbn [later_st set_reader st_cfg st_user].
      destruct (cf_filter_to cfg _ _ _ _) as [[[[d c] u] m'] to']. destruct d; rewrite <- reply_later; reflexivity.
    + destruct (st_mail s) as [m|]; [|apply reply_shut]. cbv zeta.
      destruct (cf_filter_to cfg _ _ _ _) as [[[[d c] u] m'] to']. destruct d; rewrite reply_shut; reflexivity.
Qed.
End Session.
End Later.

(** ** Runs of lines *)
Section Runs.
Context {C U W : Type}.
Variable cfg : config C U.
Variable wr : writer W.
Notation state := (@st C U W).

Lemma after_lines_shut : forall n (s s' : state) a, after_lines cfg wr n s = (Ret a, s') -> shut s = true -> shut s' = true.
Proof.
  induction n as [|n IH]; intros s s' a H Hs; cbn [after_lines] in H; [injection H as _ <-; exact Hs|].
  pose proof (next_crlf_line_ok (st_reader s)) as P. unfold line_post in P. cbn [app] in P.
  destruct (next_crlf_line (st_reader s)) as [[l| | |] p] eqn:E; try discriminate.
  destruct P as (_ & _ & _ & _ & _ & _ & He & _).
  destruct (line_commutes [] cfg wr l (set_reader s p)) as [C1 _].
  destruct (handle_line cfg wr l (set_reader s p)) as [[[]| | |] s1]; try discriminate. cbn [andthen snd] in *.
  apply (IH _ _ _ H). apply C1. unfold shut in *. cbn [set_reader st_reader]. now rewrite He.
Qed.
Lemma after_lines_later more : forall n (s s' : state) a, after_lines cfg wr n s = (Ret a, s') -> shut s' = false ->
  after_lines cfg wr n (later_st s more) = (Ret a, later_st s' more).
Proof.
  induction n as [|n IH]; intros s s' a H Hs; cbn [after_lines] in *; [injection H as <- <-; reflexivity|].
  change (st_reader (later_st s more)) with (later (st_reader s) more).
  destruct (next_crlf_line (st_reader s)) as [[l| | |] p] eqn:E; try discriminate.
  rewrite (line_later more _ _ _ E).
  change (set_reader (later_st s more) (later p more)) with (later_st (set_reader s p) more).
  destruct (line_commutes more cfg wr l (set_reader s p)) as [_ C2].
  destruct (handle_line cfg wr l (set_reader s p)) as [[[]| | |] s1]; try discriminate. cbn [andthen snd] in *.
  rewrite C2; [cbn [lift fst snd andthen]; apply IH; assumption|].
  destruct (shut s1) eqn:E1; [|reflexivity]. rewrite (after_lines_shut _ _ _ _ H E1) in Hs. discriminate.
Qed.
Lemma loop_after_lines : forall n f (s s' : state), after_lines cfg wr n s = (Ret tt, s') -> n <= f ->
  interact_loop cfg wr f s = interact_loop cfg wr (f - n) s'.
Proof.
  induction n as [|n IH]; intros f s s' H Hf; cbn [after_lines] in H.
  - injection H as <-. now rewrite Nat.sub_0_r.
  - destruct f as [|f]; [lia|]. cbn [interact_loop Nat.sub].
    destruct (next_crlf_line (st_reader s)) as [[l| | |] p]; try discriminate.
    destruct (handle_line cfg wr l (set_reader s p)) as [[[]| | |] s1]; try discriminate. cbn [andthen] in *.
    apply IH; [exact H|lia].
Qed.
Lemma loop_no_fuel : forall n f (s s' : state), after_lines cfg wr n s = (Ret tt, s') -> f < n ->
  fst (interact_loop cfg wr f s) = NoFuel.
Proof.
  induction n as [|n IH]; intros f s s' H Hf; [lia|]. cbn [after_lines] in H. destruct f as [|f]; [reflexivity|].
  cbn [interact_loop].
  destruct (next_crlf_line (st_reader s)) as [[l| | |] p]; try discriminate.
  destruct (handle_line cfg wr l (set_reader s p)) as [[[]| | |] s1]; try discriminate. cbn [andthen] in *.
  eapply IH; [exact H|lia].
Qed.
Lemma loop_ret_lines : forall f (s s' : state), interact_loop cfg wr f s = (Ret tt, s') ->
  exists n s1 p, after_lines cfg wr n s = (Ret tt, s1) /\ next_crlf_line (st_reader s1) = (NoLine, p)
  /\ s' = set_reader s1 p.
Proof.
  induction f as [|f IH]; intros s s' H; [discriminate|]. cbn [interact_loop] in H.
  destruct (next_crlf_line (st_reader s)) as [[l| | |] p] eqn:E; try discriminate.
  - destruct (handle_line cfg wr l (set_reader s p)) as [[[]| | |] s1] eqn:El; try discriminate. cbn [andthen] in *.
    destruct (IH _ _ H) as (n & s2 & q & A & B & D). exists (S n), s2, q. split; [|auto].
    cbn [after_lines]. rewrite E, El. exact A.
  - injection H as <-. exists 0, s, p. auto.
Qed.
Lemma after_lines_open (Hd : stops_at_end_mail cfg) : forall n (s s' : state), after_lines cfg wr n s = (Ret tt, s') ->
  (exists evs, st_trace s' = st_trace s ++ evs)
  /\ (shut s = false -> shut s' = true -> Exists cut_handle (st_trace s')).
Proof.
  induction n as [|n IH]; intros s s' H; cbn [after_lines] in H.
  { injection H as <-. split; [exists []; now rewrite app_nil_r|congruence]. }
  pose proof (next_crlf_line_ok (st_reader s)) as P. unfold line_post in P. cbn [app] in P.
  destruct (next_crlf_line (st_reader s)) as [[l| | |] p]; try discriminate.
  destruct P as (_ & _ & _ & _ & _ & _ & He & _).
  pose proof (line_reader cfg wr Hd l (set_reader s p)) as (evs & T & R). cbn [set_reader st_reader st_trace] in *.
  destruct (handle_line cfg wr l (set_reader s p)) as [[[]| | |] s1]; try discriminate. cbn [andthen snd] in *.
  destruct (IH _ _ H) as [(evs' & T') I]. rewrite T in T'. split.
  { exists (evs ++ evs'). now rewrite app_assoc. }
  intros Hs Hs'. destruct (shut s1) eqn:E1; [|auto].
  unfold shut, p_ended in *. cbn [fst] in R. destruct R as [_ [R|[R|(_ & _ & _ & R)]]]; [congruence| | |].
  - exfalso. congruence.
  - congruence.
  - rewrite T'. apply Exists_app. left. apply Exists_app. now right.
Qed.
End Runs.

(** ** Flushing *)
Section Flush.
Context {C U W : Type}.
Variable cfg : config C U.
Variable wr : writer W.
Notation state := (@st C U (W * bool)).

Lemma flush_flushed (s s' : state) a : with_poll_flush (track wr) s = (Ret a, s') -> all_flushed s'.
Proof.
  unfold with_poll_flush. destruct (with_poll (track wr) s) as [[[]| | |] s1] eqn:E; cbn [andthen]; try discriminate.
  assert (Hw : st_with s1 = None).
  { revert E. unfold with_poll. destruct (st_with s) eqn:Es.
    - cbv zeta. destruct (w_send (track wr) _ _) as [[|] w]; intros H; inversion H; reflexivity.
    - intros H. inversion H. congruence. }
  cbn [track w_flush]. destruct (w_flush wr (fst (st_w s1))) as [[|] w]; intros H; inversion H; subst.
  split; [exact Hw|reflexivity].
Qed.
Lemma chunks_flushed code : forall chunks (s s' : state) a,
  send_chunks (track wr) code chunks s = (Ret a, s') -> all_flushed s'.
Proof.
  induction chunks as [|t chunks IH]; intros s s' a H; cbn [send_chunks] in H; [eapply flush_flushed; exact H|].
  destruct (reply_build code _ t) as [r|]; [|discriminate].
  destruct (with_poll_ready (track wr) s) as [[[]| | |] s1]; try discriminate. cbn [andthen] in H.
  destruct (with_start_send s1 r) as [[[]| | |] s2]; try discriminate. cbn [andthen] in H.
  eapply IH; exact H.
Qed.
Lemma reply_flushed reply (s s' : state) a : send_reply (track wr) reply s = (Ret a, s') -> all_flushed s'.
Proof. unfold send_reply. destruct (byte_chunks _ _); [apply chunks_flushed|discriminate]. Qed.
Lemma reply_set_flushed reply m (s s' : state) a :
  andthen (send_reply (track wr) reply s) (fun _ x => (Ret tt, set_mail x m)) = (Ret a, s') -> all_flushed s'.
Proof.
  destruct (send_reply (track wr) reply s) as [[[]| | |] s1] eqn:E; try discriminate. cbn [andthen]. intros H.
  inversion H; subst. apply reply_flushed in E. exact E.
Qed.
(** How a line leaves the writer: flushed if it went through; flushed too if it
    panicked, unless a reply could not be sent. *)
Lemma line_flushed line (s s' : state) a : handle_line cfg (track wr) line s = (Ret a, s') -> all_flushed s'.
Proof.
  unfold handle_line. destruct (command_parse line) as [cmd| | | |]; try (apply reply_flushed); try discriminate.
  destruct cmd; try (apply reply_flushed).
  - unfold handle_data_cmd. destruct (st_mail s) as [m|]; [|apply reply_flushed]. cbv zeta.
    destruct (mm_to m); [apply reply_set_flushed|].
    destruct (cf_filter_data cfg _ _ m) as [[[[|code msg] c] u] m']; [|apply reply_set_flushed].
    match goal with |- andthen (send_reply _ ?r ?x) _ = _ -> _ =>
      destruct (send_reply (track wr) r x) as [[[]| | |] s1]; try discriminate end.
    cbn [andthen]. unfold receive_mail. destruct (run_handler _ _ _ _) as [[[r data] cs] d].
    destruct r as [[[v c'] u']| | |]; try discriminate. cbv zeta. destruct (ds_was_completed d); [|discriminate].
    destruct v; apply reply_flushed.
  - unfold handle_mail_cmd. destruct (st_mail s) as [m|]; [apply reply_flushed|]. cbv zeta.
    destruct (cf_filter_from cfg _ _ _) as [[[[|code msg] c] u] f']; [apply reply_set_flushed|apply reply_flushed].
  - unfold handle_rcpt_cmd. destruct (st_mail s) as [m|]; [|apply reply_flushed].
    destruct (cf_filter_to cfg _ _ _ _) as [[[[[|code msg] c] u] m'] t']; cbv zeta; apply reply_flushed.
Qed.
Lemma after_lines_flushed : forall n (s s' : state) a, all_flushed s ->
  after_lines cfg (track wr) n s = (Ret a, s') -> all_flushed s'.
Proof.
  induction n as [|n IH]; intros s s' a Hs H; cbn [after_lines] in H; [inversion H; subst; exact Hs|].
  destruct (next_crlf_line (st_reader s)) as [[l| | |] p]; try discriminate.
  destruct (handle_line cfg (track wr) l (set_reader s p)) as [[[]| | |] s1] eqn:E; try discriminate. cbn [andthen] in H.
  apply line_flushed in E. eapply IH; eauto.
Qed.
Hypothesis Hrep : all_replies good_reply cfg.
Lemma reply_panic reply (s s' : state) : good_reply reply -> st_with s = None -> send_reply (track wr) reply s = (Panic, s') -> False.
Proof. intros H1 H2 E. pose proof (reply_no_panic (track wr) reply s H1 H2) as [N _]. rewrite E in N. auto. Qed.
Lemma reply_set_panic reply m (s s' : state) : good_reply reply -> st_with s = None ->
  andthen (send_reply (track wr) reply s) (fun _ x => (Ret tt, set_mail x m)) = (Panic, s') -> False.
Proof.
  intros H1 H2 E. pose proof (reply_no_panic (track wr) reply s H1 H2) as [N _].
  destruct (send_reply (track wr) reply s) as [[[]| | |] s1]; cbn [andthen fst] in *; congruence.
Qed.
Lemma handler_good : forall (h : handler C U) d data cs v c u data' cs' d', handler_replies good_reply h ->
  run_handler h d data cs = (Ret (v, c, u), data', cs', d') -> on_refusal good_reply v.
Proof.
  induction h as [stop f IH|g IH|q IH|v0 c0 u0]; intros d data cs v c u data' cs' d' Hh H; cbn [run_handler handler_replies] in *.
  - destruct (ds_read_until _ stop [] d) as [[[items ov]|] d1]; [|discriminate]. eapply IH; [apply Hh|exact H].
  - destruct (ds_complete d) as [[| |] d1]; try discriminate; (eapply IH; [apply Hh|exact H]).
  - destruct (ds_poll d) as [[x| |] d1]; try discriminate; (eapply IH; [apply Hh|exact H]).
  - injection H as <- _ _ _ _ _. exact Hh.
Qed.
Lemma line_panic_flushed line (s s' : state) : all_flushed s ->
  handle_line cfg (track wr) line s = (Panic, s') -> all_flushed s'.
Proof.
  intros [Hw Hf]. pose proof Hrep as HR. destruct HR. unfold handle_line.
  destruct (command_parse line) as [cmd| | | |]; try discriminate;
    try (intros E; exfalso; eapply reply_panic; [| |exact E]; auto; fail).
  destruct cmd; try (intros E; exfalso; eapply reply_panic; [| |exact E]; auto; fail).
  - unfold handle_data_cmd. destruct (st_mail s) as [m|]; [|intros E; exfalso; eapply reply_panic; [| |exact E]; auto].
    cbv zeta. destruct (mm_to m); [intros E; exfalso; eapply reply_set_panic; [| |exact E]; auto|].
    change (st_cfg (set_mail s None)) with (st_cfg s). change (st_user (set_mail s None)) with (st_user s).
    pose proof (ar_filter_data (st_cfg s) (st_user s) m) as Hfd.
    destruct (cf_filter_data cfg (st_cfg s) (st_user s) m) as [[[[|code msg] c] u] m'];
      [|intros E; exfalso; eapply reply_set_panic; [| |exact E]; auto].
    match goal with |- andthen (send_reply _ ?r ?x) _ = _ -> _ =>
      destruct (send_reply (track wr) r x) as [[[]| | |] s1] eqn:E1; try discriminate end.
    2:{ exfalso. eapply reply_panic; [| |exact E1]; auto. }
    cbn [andthen]. apply reply_flushed in E1. destruct E1 as [F1 F2].
    unfold receive_mail. destruct (run_handler _ _ _ _) as [[[r data] cs] d] eqn:Er.
    destruct r as [[[v c'] u']| | |]; try discriminate.
    + cbv zeta. destruct (ds_was_completed d).
      * pose proof (handler_good _ _ _ _ _ _ _ _ _ _ (ar_handle _ _ _) Er) as Hg.
        destruct v; intros E; exfalso; (eapply reply_panic; [| |exact E]; auto).
      * intros E. injection E as <-. split; [exact F1|exact F2].
    + intros E. injection E as <-. split; [exact F1|exact F2].
  - unfold handle_mail_cmd. destruct (st_mail s) as [m|]; [intros E; exfalso; eapply reply_panic; [| |exact E]; auto|].
    cbv zeta. cbn [log set_cfg st_cfg st_user].
    match goal with |- context [cf_filter_from cfg ?x ?y ?z] => pose proof (ar_from x y z) as Hff;
      destruct (cf_filter_from cfg x y z) as [[[[|code msg] c] u] f'] end;
      intros E; exfalso; [eapply reply_set_panic|eapply reply_panic]; try exact E; auto.
  - unfold handle_rcpt_cmd. destruct (st_mail s) as [m|]; [|intros E; exfalso; eapply reply_panic; [| |exact E]; auto].
    match goal with |- context [cf_filter_to cfg ?x ?y ?z ?t] => pose proof (ar_to x y z t) as Hff;
      destruct (cf_filter_to cfg x y z t) as [[[[[|code msg] c] u] m'] t'] end; cbv zeta;
      intros E; exfalso; (eapply reply_panic; [| |exact E]; auto).
Qed.
Lemma loop_panic_flushed : forall f (s s' : state), all_flushed s ->
  interact_loop cfg (track wr) f s = (Panic, s') -> all_flushed s'.
Proof.
  induction f as [|f IH]; intros s s' Hs H; [discriminate|]. cbn [interact_loop] in H.
  pose proof (next_crlf_line_ok (st_reader s)) as P. unfold line_post in P. cbn [app] in P.
  destruct (next_crlf_line (st_reader s)) as [[l| | |] p]; try discriminate; [|destruct P].
  destruct (handle_line cfg (track wr) l (set_reader s p)) as [[[]| | |] s1] eqn:E; try discriminate; cbn [andthen] in H.
  - apply line_flushed in E. eapply IH; eauto.
  - injection H as <-. eapply line_panic_flushed; [|exact E]. exact Hs.
Qed.
End Flush.

(** ** What a data stream that waits has given out *)
Definition reseat (d : datastream) (x : bytes) : datastream := DS (prep_new (src_of [Chunk x])) (ds_st d) (ds_buf d).
Lemma iter_reseat d r d' x : ds_iter d = (r, d') -> ds_iter (reseat d x) = (r, reseat d' x).
Proof.
  unfold ds_iter, reseat. cbn [ds_st ds_buf ds_source]. destruct (find_split (ds_st d) (ds_buf d)) as [st' [|y|y|y]].
  - destruct (ds_buf d); intros H; injection H as <- <-; reflexivity.
  - cbv zeta. destruct (firstn y (ds_buf d)); intros H; injection H as <- <-; reflexivity.
  - cbv zeta. destruct (firstn y (ds_buf d)); intros H; injection H as <- <-; reflexivity.
  - destruct (0 <? y); intros H; injection H as <- <-; reflexivity.
Qed.
Lemma reseat_dec d x : ds_dec (reseat d x) = dec (ds_st d) (ds_buf d ++ x).
Proof. unfold ds_dec, reseat, unread, src_bytes. cbn. now rewrite app_nil_r. Qed.
Definition held (d : datastream) : Prop :=
  ds_buf d = [] \/ (ds_st d = CrLfPassed /\ (ds_buf d = [DOT] \/ ds_buf d = [DOT; CR])).
Definition gave (r : ds_poll_result) : bytes := match r with DReady (Some b) => b | _ => [] end.
Lemma poll_loop_held : forall f d r d', ds_poll_loop f d = (r, d') -> active (ds_st d) -> active (ds_st d') ->
  r <> DFuel -> r <> DReady None ->
  exists rd, unread (ds_source d) = rd ++ unread (ds_source d')
  /\ (forall x, dec (ds_st d) (ds_buf d ++ rd ++ x) = padd (gave r) (dec (ds_st d') (ds_buf d' ++ x)))
  /\ (r = DPending -> held d').
Proof.
  induction f as [|f IH]; intros d r d' H Ha Ha' Hr Hn; [injection H as <- <-; congruence|].
  cbn [ds_poll_loop] in H. destruct (ds_iter d) as [x d1] eqn:E.
  pose proof (iter_source d) as Es. rewrite E in Es. cbn [snd] in Es.
  assert (Hit : forall y, match x with
     | IReturn (Some b) => active (ds_st d1) -> dec (ds_st d) (ds_buf d ++ y) = padd b (dec (ds_st d1) (ds_buf d1 ++ y))
     | IReturn None => ds_st d1 = Finished
     | IContinue => active (ds_st d1) /\ dec (ds_st d) (ds_buf d ++ y) = dec (ds_st d1) (ds_buf d1 ++ y)
     | IRead => active (ds_st d1) /\ dec (ds_st d) (ds_buf d ++ y) = dec (ds_st d1) (ds_buf d1 ++ y) /\ held d1
     end).
  { intros y. pose proof (ds_iter_ok (reseat d y) Ha (or_intror eq_refl)) as P.
    rewrite (iter_reseat _ _ _ y E) in P. rewrite <- !reseat_dec. destruct x as [[b|]| |].
    - destruct P as (_ & _ & _ & [[_ P]|[P _]]); [auto|]. cbn in P. rewrite P. intros [C|[C|C]]; discriminate.
    - apply P.
    - split; apply P.
    - destruct P as (_ & P2 & P3 & P4 & P5). split; [exact P2|]. split; [exact P3|].
      unfold held. cbn [reseat ds_buf ds_st] in *. rewrite P4. exact P5. }
  destruct x as [x| |].
  - injection H as <- <-. exists []. rewrite Es. split; [reflexivity|]. split; [|discriminate].
    intros y. specialize (Hit y). destruct x as [b|]; [|congruence]. cbn [app gave]. auto.
  - destruct (Hit []) as [Ha1 _]. destruct (IH _ _ _ H Ha1 Ha' Hr Hn) as (rd & R1 & R2 & R3).
    exists rd. rewrite <- Es. split; [exact R1|]. split; [|exact R3].
    intros y. destruct (Hit (rd ++ y)) as [_ ->]. apply R2.
  - destruct (Hit []) as (Ha1 & _ & Hh). pose proof (prep_poll_ok (ds_source d1)) as P.
    destruct (prep_poll (ds_source d1)) as [[|[b|]] p] eqn:Ep.
    + injection H as <- <-. destruct P as (P & _). exists []. cbn [ds_source ds_st ds_buf app gave]. rewrite <- Es, P.
      split; [reflexivity|]. split; [|intros _; exact Hh].
      intros y. rewrite padd_nil. apply (Hit y).
    + destruct P as (P & _). destruct (IH (DS p (ds_st d1) (ds_buf d1 ++ b)) _ _ H Ha1 Ha' Hr Hn) as (rd & R1 & R2 & R3).
      cbn [ds_source ds_st ds_buf] in *. exists (b ++ rd). rewrite <- Es, P, R1, <- app_assoc.
      split; [reflexivity|]. split; [|exact R3]. intros y.
      destruct (Hit (b ++ rd ++ y)) as (_ & Hy & _). rewrite <- !app_assoc, Hy, <- R2, <- app_assoc. reflexivity.
    + injection H as <- <-. congruence.
Qed.
Lemma polled_held p out last d : polled p out last d -> active (ds_st d) ->
  exists rd, unread p = rd ++ unread (ds_source d)
  /\ (forall x, dec CrLfPassed (rd ++ x) = padd out (dec (ds_st d) (ds_buf d ++ x)))
  /\ (last = Some DPending -> held d).
Proof.
  induction 1 as [|out last d r d' H IH Hl Hp]; intros Ha'.
  - exists []. split; [reflexivity|]. split; [|discriminate]. intros x. now rewrite padd_nil.
  - pose proof (polled_ok _ _ _ _ H) as [Hs HP].
    destruct HP as [(Ha & _)|[(Hf & _)|(_ & Cx & _)]]; [| |congruence].
    2:{ unfold ds_poll in Hp. rewrite Hf in Hp. injection Hp as <- <-. rewrite Hf in Ha'. destruct Ha' as [Cx|[Cx|Cx]]; discriminate. }
    destruct (IH Ha) as (rd & R1 & R2 & _).
    pose proof (ds_poll_ok d Ha Hs) as P. rewrite Hp in P.
    assert (Hn : r <> DReady None).
    { intros ->. unfold poll_post in P. destruct P as (_ & _ & [(Hf' & _)|(Hf' & _)]); rewrite Hf' in Ha'; destruct Ha' as [Cx|[Cx|Cx]]; discriminate. }
    assert (Hq : r <> DFuel) by (intros ->; exact P).
    assert (Hp' : ds_poll_loop (S (ds_size d)) d = (r, d')).
    { revert Hp. unfold ds_poll. destruct Ha as [->|[->| ->]]; auto. }
    destruct (poll_loop_held _ _ _ _ Hp' Ha Ha' Hq Hn) as (rd' & Q1 & Q2 & Q3).
    exists (rd ++ rd'). rewrite R1, Q1, <- app_assoc. split; [reflexivity|]. split.
    + intros x. rewrite <- app_assoc, R2, Q2, padd_app. reflexivity.
    + intros Hx. injection Hx as ->. now apply Q3.
Qed.
Lemma pending_active p out d : polled p out (Some DPending) d -> active (ds_st d).
Proof.
  intros H. pose proof (polled_ok _ _ _ _ H) as [Hs HP].
  destruct HP as [(Ha & _)|[(Hf & _)|(_ & Cx & _)]]; [exact Ha| |discriminate].
  inversion H; subst. match goal with X : ds_poll _ = (DPending, _) |- _ => rename X into Hp end.
  match goal with X : polled p _ _ _ |- _ => pose proof (polled_ok _ _ _ _ X) as [Hs0 HP0] end.
  destruct HP0 as [(Ha0 & _)|[(Hf0 & _)|(Hf0 & Cx & _)]].
  - pose proof (ds_poll_ok _ Ha0 Hs0) as P. rewrite Hp in P. apply P.
  - unfold ds_poll in Hp. rewrite Hf0 in Hp. discriminate.
  - congruence.
Qed.
Lemma pending_interrupted p out d : polled p out (Some DPending) d ->
  exists rd, unread p = rd ++ unread (ds_source d) /\ dec CrLfPassed rd = (out, None).
Proof.
  intros H. destruct (polled_held _ _ _ _ H (pending_active _ _ _ H)) as (rd & R1 & R2 & R3).
  exists rd. split; [exact R1|]. specialize (R2 []). rewrite !app_nil_r in R2. rewrite R2.
  destruct (R3 eq_refl) as [->|[-> [->| ->]]]; unfold padd; cbn; now rewrite app_nil_r.
Qed.
