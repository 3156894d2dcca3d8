(** When the future of Async.v waits for the incoming stream, everything it has
    said is flushed. *)
From Verif Require Import Bytes Nom SmtpString Ip Message Reply Stream Interact Async SpecPrompt SpecAsync AsyncWaits.

Section Flush.
Context {C U W : Type}.
Variable cfg : config C U.
Variable wr : writer W.
Notation state := (@st C U (W * bool)).
Notation world := (@world C U (W * bool)).
Notation async := (@async C U (W * bool)).

Definition known (b : bool) (s : state) : Prop := if b then all_flushed s else True.
Inductive fl {A} (Q : bool) : bool -> async A -> Prop :=
| fl_fail P o : match o with Ret _ => False | _ => True end -> fl Q P (ADone o)
| fl_ret P a : P = true \/ Q = false -> fl Q P (ADone (Ret a))
| fl_await P P' L B (op : L -> world -> poll (outcome B) * L * world) l k : goodop True op ->
    (forall l x r l' x', known P (w_st x) -> op l x = (r, l', x') ->
       match r with
       | Pending => known P (w_st x') /\ (P = true \/ events_of x = events_of x')
       | Ready (Ret _) => known P' (w_st x')
       | _ => True
       end) ->
    (forall b, fl Q P' (k b)) -> fl Q P (AAwait op l k)
| fl_weak P p : fl Q false p -> fl Q P p.

Lemma fl_bind {A B} (Q R P : bool) (p : async A) (f : A -> async B) :
  fl R P p -> (forall a, fl Q R (f a)) -> fl Q P (abind p f).
Proof.
  intros H Hf. induction H as [P o Ho|P a Ha|P P' L T op l k Hg Ho Hk IH|P p Hp IH].
  - destruct o; cbn; [now elim Ho|now apply fl_fail..].
  - cbn. destruct Ha as [->| ->].
    + destruct R; [apply Hf|apply fl_weak, Hf].
    + apply fl_weak, Hf.
  - cbn. eapply fl_await; [exact Hg|exact Ho|]. exact IH.
  - apply fl_weak, IH.
Qed.
Lemma fl_poll {A} Q P (p : async A) : fl Q P p -> forall x p' x', known P (w_st x) ->
  poll_async p x = (inr p', x') ->
  exists P', fl Q P' p' /\ known P' (w_st x')
    /\ (P' = true \/ exists a, Forall is_chunk a /\ events_of x = a ++ events_of x').
Proof.
  induction 1 as [P o Ho|P a Ha|P P' L B op l k Hg Ho Hk IH|P p Hp IH]; intros x p' x' Kx E.
  - discriminate.
  - discriminate.
  - cbn in E. destruct (op l x) as [[q l'] x1] eqn:Eo. pose proof (Ho _ _ _ _ _ Kx Eo) as Hq.
    destruct q as [|[b| | |]]; try discriminate.
    + injection E as <- <-. destruct Hq as [Kx1 He]. exists P. split; [now apply (fl_await Q P P')|].
      split; [exact Kx1|]. destruct He as [->|He]; [now left|right]. exists []. now split.
    + destruct (IH _ _ _ _ Hq E) as (P2 & H1 & H2 & H3). exists P2. split; [exact H1|]. split; [exact H2|].
      destruct H3 as [H3|(a & H3 & H4)]; [now left|right].
      destruct (Hg _ _ _ _ _ Eo) as (a1 & s1 & t1 & (E1 & _) & F1). destruct (F1 I) as [F1' _]. exists (a1 ++ a).
      split; [apply Forall_app; now split|]. rewrite E1, H4. apply app_assoc.
  - destruct (IH x p' x' I E) as (P' & H1 & H2 & H3). exists P'. repeat split; assumption.
Qed.

(** ** The leaves *)
Definition untouched (s s' : state) : Prop := st_w s' = st_w s /\ st_with s' = st_with s.
Lemma known_same P s s' : untouched s s' -> known P s -> known P s'.
Proof. intros [E1 E2]. destruct P; cbn; [|trivial]. unfold all_flushed. now rewrite E1, E2. Qed.
Lemma fl_sync {B} P (f : state -> outcome B * state) :
  (forall s o s', f s = (o, s') -> src_events (pr_stream (st_reader s)) = src_events (pr_stream (st_reader s')) /\ exists t, st_trace s' = st_trace s ++ t) ->
  (forall s o s', f s = (o, s') -> untouched s s') ->
  fl P P (sync f).
Proof.
  intros Hg Hf. apply (fl_await P P P).
  - intros l x r l' x' E. destruct (f (w_st x)) as [o s'] eqn:F. injection E as <- <- <-.
    destruct (Hg _ _ _ F) as [H1 [t H2]]. exists [], [], t. split; [|intros _; apply all_ready_nil]. now repeat split.
  - intros l x r l' x' K E. destruct (f (w_st x)) as [o s'] eqn:F. injection E as <- <- <-.
    destruct o; try exact I. exact (known_same P _ _ (Hf _ _ _ F) K).
  - intros b. apply fl_ret. destruct P; auto.
Qed.
Lemma fl_user {B} P (f : state -> B * state) :
  (forall s b s', f s = (b, s') -> src_events (pr_stream (st_reader s)) = src_events (pr_stream (st_reader s')) /\ exists t, st_trace s' = st_trace s ++ t) ->
  (forall s b s', f s = (b, s') -> untouched s s') ->
  fl P P (a_user f).
Proof.
  intros Hg Hf. apply (fl_await P P P).
  - now apply goodop_user.
  - intros l x r l' x' K E. unfold op_user in E. destruct (ask x) as [b x1] eqn:A. destruct (ask_used _ _ _ A) as (E1 & _).
    destruct b.
    + injection E as <- <- <-. unfold events_of. rewrite E1. split; [exact K|now right].
    + destruct (f (w_st x1)) as [b s'] eqn:F. injection E as <- <- <-. cbn. rewrite E1 in F. exact (known_same P _ _ (Hf _ _ _ F) K).
  - intros b. apply fl_ret. destruct P; auto.
Qed.
Lemma fl_read {B} P (f : state -> B) : fl P P (read f).
Proof.
  apply fl_sync; intros s o s' E; injection E as <- <-; [|now split]. split; [reflexivity|]. exists []. symmetry. apply app_nil_r.
Qed.
Lemma fl_set_mail P (m : state -> option mail_meta) : fl P P (sync (fun s => (Ret tt, set_mail s (m s)))).
Proof.
  apply fl_sync; intros s o s' E; injection E as <- <-; [|now split]. split; [reflexivity|]. exists []. symmetry. apply app_nil_r.
Qed.
Lemma fl_ready {A} Q (k : unit -> async A) : (forall b, fl Q false (k b)) -> fl Q false (AAwait (op_ready (scheduled (track wr))) tt k).
Proof.
  intros Hk. apply (fl_await Q false false); [apply goodop_ready| |exact Hk].
  intros l x r l' x' _ E. destruct r as [|[b| | |]]; try exact I. split; [exact I|]. right.
  rewrite op_ready_scheduled in E. destruct (with_poll (track wr) (w_st x)) as [o s1] eqn:P. destruct (with_poll_still _ _ _ _ P) as (R & _).
  destruct o as [[]| | |]; try discriminate. destruct (ask (upd x s1)) as [b x1] eqn:Ea. destruct (ask_used _ _ _ Ea) as (E1 & _).
  destruct b; [|destruct (w_ready (track wr) (st_w (w_st x1))) as [[|] w]; discriminate].
  injection E as <- <-. unfold events_of. rewrite E1. cbn. now rewrite R.
Qed.
Lemma with_poll_empty (s : state) u s' : with_poll (track wr) s = (Ret u, s') -> st_with s' = None.
Proof.
  unfold with_poll. destruct (st_with s) as [b|] eqn:Es.
  - destruct (w_send (track wr) (st_w (set_with s None)) b) as [[|] w']; intros E; [|discriminate]. injection E as <- <-. reflexivity.
  - intros E. injection E as <- <-. exact Es.
Qed.
Lemma fl_flush : fl true false (AAwait (op_flush (scheduled (track wr))) tt (fun _ => ADone (Ret tt))).
Proof.
  apply (fl_await true false true); [apply goodop_flush| |intros; apply fl_ret; now left].
  intros l x r l' x' _ E. rewrite op_flush_scheduled in E. destruct (with_poll (track wr) (w_st x)) as [o s1] eqn:P.
  destruct (with_poll_still _ _ _ _ P) as (R & _).
  destruct o as [u0| | |]; try (injection E as <- <- <-; exact I).
  pose proof (with_poll_empty _ _ _ P) as Hn.
  destruct (ask (upd x s1)) as [b x1] eqn:A. destruct (ask_used _ _ _ A) as (E1 & _). cbn in E1.
  destruct b.
  - injection E as <- <- <-. split; [exact I|right]. unfold events_of. rewrite E1. now rewrite R.
  - cbn [track w_flush] in E. destruct (w_flush wr (fst (st_w (w_st x1)))) as [[|] w]; injection E as <- <- <-; [|exact I].
    split; [|reflexivity]. cbn. rewrite E1. exact Hn.
Qed.
Lemma fl_send_reply P r : fl true P (a_send_reply (scheduled (track wr)) r).
Proof.
  apply fl_weak. unfold a_send_reply. destruct (byte_chunks _ _) as [chunks|]; [|now apply fl_fail].
  induction chunks as [|t chunks IH]; cbn [a_send_chunks].
  - apply fl_flush.
  - destruct (reply_build _ _ t) as [rl|e]; [|now apply fl_fail]. apply fl_ready. intros [].
    apply (fl_bind true false false); [|intros; exact IH]. apply (fl_await false false false); [| |intros; apply fl_ret; now right].
    + intros l x r0 l' x' E. destruct (with_start_send (w_st x) rl) as [o s'] eqn:F. injection E as <- <- <-.
      exists [], [], []. split; [|intros _; apply all_ready_nil]. unfold with_start_send in F.
      destruct (_ <? _)%nat; injection F as <- <-; repeat split; symmetry; apply app_nil_r.
    + intros l x r0 l' x' _ E. destruct (with_start_send (w_st x) rl) as [o s'] eqn:F. injection E as <- <- <-. destruct o; exact I.
Qed.
Lemma fl_say P which : fl true P (a_say (scheduled (track wr)) which).
Proof. apply (fl_bind true P P); [apply fl_read|]. intros s. apply fl_send_reply. Qed.
Lemma fl_prepend b : fl true true (a_prepend b).
Proof.
  apply fl_sync; intros s o s' E; unfold prep_prepend in E; destruct (pr_prepended (st_reader s)); injection E as <- <-;
    try (now split); (split; [reflexivity|]); exists []; symmetry; apply app_nil_r.
Qed.
Lemma fl_next_line : fl true true a_next_line.
Proof.
  apply (fl_bind true true true); [apply fl_read|]. intros fuel.
  generalize (@nil N) as buf. intros buf. revert buf. induction fuel as [|fuel IH]; intros buf; cbn [a_next_line_loop]; [now apply fl_fail|].
  apply (fl_await true true true); [apply goodop_next| |].
  - intros l x r l' x' K E. unfold op_next in E. destruct (prep_poll (st_reader (w_st x))) as [q p].
    destruct q as [|q]; injection E as <- <- <-; [split; [|now left]|]; exact (known_same true (w_st x) (set_reader (w_st x) p) (conj eq_refl eq_refl) K).
  - intros [pkt|].
    + cbv zeta. destruct (find_sub CRLF (buf ++ pkt)); [|apply IH]. apply (fl_bind true true true); [apply fl_prepend|]. intros. apply fl_ret. now left.
    + apply (fl_bind true true true); [apply fl_prepend|]. intros. apply fl_ret. now left.
Qed.
Lemma fl_stream {A} Q l (k : _ -> async A) : (forall b, fl Q true (k b)) -> fl Q true (AAwait op_stream l k).
Proof.
  intros Hk. apply (fl_await Q true true); [apply goodop_stream| |exact Hk].
  intros l0 x r l' x' K E. unfold op_stream in E. destruct (ds_poll _) as [q d].
  destruct q; injection E as <- <- <-; try exact I; try (split; [|now left]); exact (known_same true (w_st x) (set_reader (w_st x) (ds_source d)) (conj eq_refl eq_refl) K).
Qed.
Lemma fl_log {B} P (o : outcome B) (f : state -> state) (e : obs U) :
  (forall s, st_reader (f s) = st_reader s /\ st_trace (f s) = st_trace s /\ untouched s (f s)) -> fl P P (sync (fun s => (o, log (f s) e))).
Proof.
  intros H. apply fl_sync; intros s o' s' E; injection E as <- <-; cbn; destruct (H s) as (H1 & H2 & H3).
  - rewrite H1, H2. split; [reflexivity|]. now exists [e].
  - exact H3.
Qed.
Lemma fl_handler u0 m h : handler_awaits h -> forall t buf data cs, fl true true (a_handler u0 m h t buf data cs).
Proof.
  assert (Hp : fl true true (a_user (fun s : state => (st_reader s, s)))).
  { apply fl_user; intros s b s' E; injection E as <- <-; [|now split]. split; [reflexivity|]. exists []. symmetry. apply app_nil_r. }
  induction h as [stop k IH|k IH|q IH|v c u]; intros Hs t buf data cs; [| |destruct Hs|]; cbn [a_handler]; (apply (fl_bind true true true); [exact Hp|]); intros s.
  - apply (fl_bind true true true); [|intros [[[items over] t'] buf']; apply IH, Hs].
    generalize (S (ds_size (DS s t buf))) as fuel. generalize (@nil bytes) as acc. intros acc fuel. revert acc t buf.
    induction fuel as [|fuel IHf]; intros acc t buf; cbn [a_read_until]; destruct (stop acc); try (apply fl_ret; now left); try (now apply fl_fail).
    apply fl_stream. intros [[[b|] t'] buf']; [apply IHf|apply fl_ret; now left].
  - apply (fl_bind true true true); [|intros [[[| |] t'] buf']; [apply IH, Hs|apply IH, Hs|]].
    + apply fl_sync; intros s' o s2 E; destruct (ds_complete (DS (st_reader s') t buf)) as [r d] eqn:D; injection E as <- <-; [|now split].
      apply ds_complete_events in D. split; [exact D|]. exists []. symmetry. apply app_nil_r.
    + apply (fl_log true Panic (fun s => s)). now repeat split.
  - apply (fl_log true (Ret (v, t)) (fun s => set_cu s c u)). now repeat split.
Qed.
Lemma fl_new_mail P : fl P P (a_user (call_new_mail cfg)).
Proof. apply fl_user; intros s b s' E; injection E as <- <-; [|now split]. split; [reflexivity|]. now exists [ONewMail]. Qed.
Lemma fl_filter_from P f : fl P P (a_user (call_filter_from cfg f)).
Proof.
  apply fl_user; intros s b s' E; unfold call_filter_from in E; destruct (cf_filter_from cfg _ _ f) as [[[d c] u] f'];
  injection E as <- <-; [|now split]. split; [reflexivity|]. eexists. reflexivity.
Qed.
Lemma fl_filter_to P m t : fl P P (a_user (call_filter_to cfg m t)).
Proof.
  apply fl_user; intros s b s' E; unfold call_filter_to in E; destruct (cf_filter_to cfg _ _ m t) as [[[[d c] u] m'] t'];
  injection E as <- <-; [|now split]. split; [reflexivity|]. eexists. reflexivity.
Qed.
Lemma fl_filter_data P m : fl P P (a_user (call_filter_data cfg m)).
Proof.
  apply fl_user; intros s b s' E; unfold call_filter_data in E; destruct (cf_filter_data cfg _ _ m) as [[[d c] u] m'];
  injection E as <- <-; [|now split]. split; [reflexivity|]. eexists. reflexivity.
Qed.
Ltac seq := apply (fl_bind true true true).
Hypothesis Hawait : awaiting cfg.
Lemma fl_line l : fl true true (a_handle_line cfg (scheduled (track wr)) (scheduled_user cfg) l).
Proof.
  assert (Hmail : forall f, fl true true (a_mail_cmd cfg (scheduled (track wr)) (scheduled_user cfg) f)).
  { intros f. seq; [apply fl_read|]. intros mail. destruct mail; [apply fl_say|].
    seq; [apply fl_new_mail|]. intros _. seq; [apply fl_filter_from|]. intros [[|code msg] f']; [|apply fl_send_reply].
    seq; [apply fl_say|]. intros _. apply (fl_set_mail true (fun _ => Some (Meta f' []))). }
  assert (Hrcpt : forall t, fl true true (a_rcpt_cmd cfg (scheduled (track wr)) (scheduled_user cfg) t)).
  { intros f. seq; [apply fl_read|]. intros mail. destruct mail as [m|]; [|apply fl_say].
    seq; [apply fl_filter_to|]. intros [[[|code msg] m'] f']; [|apply fl_send_reply].
    seq; [apply (fl_set_mail true (fun _ => Some (Meta (mm_from m') (mm_to m' ++ [f']))))|]. intros _. apply fl_say. }
  assert (Hdata : fl true true (a_data_cmd cfg (scheduled (track wr)) (scheduled_user cfg))).
  { seq; [apply fl_read|]. intros mail. destruct mail as [m|]; [|apply fl_say].
    seq; [apply (fl_set_mail true (fun _ => None))|]. intros _. destruct (mm_to m).
    - seq; [apply fl_say|]. intros _. apply (fl_set_mail true (fun _ => Some m)).
    - seq; [apply fl_filter_data|]. intros [[|code msg] m'].
      + seq; [apply fl_say|]. intros _.
        seq; [seq; [apply fl_read|intros [[c2 u2] d2]; apply fl_handler, Hawait]|]. intros [v []]; try (now apply fl_fail). destruct v; [apply fl_say|apply fl_send_reply].
      + seq; [apply fl_send_reply|]. intros _. apply (fl_set_mail true (fun _ => Some m')). }
  unfold a_handle_line. destruct (command_parse l) as [c|n| | |]; try apply fl_say; [|now apply fl_fail].
  destruct c; try apply fl_say; [exact Hdata|apply Hmail|apply Hrcpt].
Qed.
Lemma fl_future : fl true false (interact_future cfg (scheduled (track wr))).
Proof.
  apply (fl_bind true true false); [apply fl_say|]. intros _. seq; [apply fl_read|]. intros fuel.
  induction fuel as [|fuel IH]; cbn [a_loop]; [now apply fl_fail|].
  seq; [apply fl_next_line|]. intros [l|]; [|apply fl_ret; now left]. seq; [apply fl_line|]. intros _. exact IH.
Qed.
End Flush.
