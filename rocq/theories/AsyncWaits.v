(** What a poll of the future of Async.v asks for, and in which state it waits. *)
From Verif Require Import Bytes Nom SmtpString Ip Message Reply Stream Interact Async SpecPrompt SpecAsync.

Section Told.
Context {C U W : Type}.
Variable cfg : config C U.
Variable wr : writer W.
Notation state := (@st C U W).
Notation world := (@world C U W).
Notation async := (@async C U W).

(** What the scheduled writer answers, spelled out. *)
Lemma op_ready_scheduled l (x : world) : op_ready (scheduled wr) l x =
  match with_poll wr (w_st x) with
  | (Ret _, s) =>
      match ask (upd x s) with
      | (true, x) => (Pending, tt, x)
      | (false, x) =>
          match w_ready wr (st_w (w_st x)) with
          | (true, w) => (Ready (Ret tt), tt, upd x (set_w (w_st x) w))
          | (false, w) => (Ready WriteErr, tt, upd x (set_w (w_st x) w))
          end
      end
  | (o, s) => (Ready o, tt, upd x s)
  end.
Proof.
  unfold op_ready. change (with_poll (sender (scheduled wr)) (w_st x)) with (with_poll wr (w_st x)).
  destruct (with_poll wr (w_st x)) as [[[]| | |] s]; try reflexivity. cbn [scheduled ou_ready]. destruct (ask (upd x s)) as [[|] y]; [reflexivity|].
  destruct (w_ready wr (st_w (w_st y))) as [[|] w]; reflexivity.
Qed.
Lemma op_flush_scheduled l (x : world) : op_flush (scheduled wr) l x =
  match with_poll wr (w_st x) with
  | (Ret _, s) =>
      match ask (upd x s) with
      | (true, x) => (Pending, tt, x)
      | (false, x) =>
          match w_flush wr (st_w (w_st x)) with
          | (true, w) => (Ready (Ret tt), tt, upd x (set_w (w_st x) w))
          | (false, w) => (Ready WriteErr, tt, upd x (set_w (w_st x) w))
          end
      end
  | (o, s) => (Ready o, tt, upd x s)
  end.
Proof.
  unfold op_flush. change (with_poll (sender (scheduled wr)) (w_st x)) with (with_poll wr (w_st x)).
  destruct (with_poll wr (w_st x)) as [[[]| | |] s]; try reflexivity. cbn [scheduled ou_flush]. destruct (ask (upd x s)) as [[|] y]; [reflexivity|].
  destruct (w_flush wr (st_w (w_st y))) as [[|] w]; reflexivity.
Qed.

(** What holds if the handlers wait for what they read is said under [strict]. *)
Variable strict : Prop.
Definition told {B} (r : poll B) (answers : list event) (asked : list bool) : Prop :=
  match r with
  | Ready _ => strict -> all_ready answers asked
  | Pending => 1 <= count_pend answers + count_true asked
               /\ (strict -> source_pending answers asked \/ user_pending answers asked)
  end.
Definition goodop {L B} (op : L -> world -> poll (outcome B) * L * world) : Prop :=
  forall l x r l' x', op l x = (r, l', x') -> exists a s t, between x x' a s t /\ told r a s.
Inductive good {A} : async A -> Prop :=
| gd_done o : good (ADone o)
| gd_await L B (op : L -> world -> poll (outcome B) * L * world) l k : goodop op -> (forall b, good (k b)) -> good (AAwait op l k).

Lemma count_pend_app a b : count_pend (a ++ b) = count_pend a + count_pend b.
Proof. unfold count_pend. now rewrite filter_app, app_length. Qed.
Lemma count_true_app a b : count_true (a ++ b) = count_true a + count_true b.
Proof. unfold count_true. now rewrite filter_app, app_length. Qed.
Lemma count_ready a s : all_ready a s -> count_pend a + count_true s = 0.
Proof.
  intros [H1 H2]. assert (E1 : count_pend a = 0).
  { induction H1 as [|e a [b ->] _ IH]; [reflexivity|exact IH]. }
  rewrite E1. induction H2 as [|b s -> _ IH]; [reflexivity|exact IH].
Qed.
Lemma count_waits a s : source_pending a s \/ user_pending a s -> count_pend a + count_true s = 1.
Proof.
  intros [(b & -> & H)|(b & -> & H)]; apply count_ready in H; rewrite ?count_pend_app, ?count_true_app; cbn; lia.
Qed.
Lemma told_waits {B} a s : source_pending a s \/ user_pending a s -> told (@Pending B) a s.
Proof. intros H. split; [rewrite (count_waits _ _ H); lia|]. intros _. exact H. Qed.
Lemma between_trans (x y z : world) a s t a' s' t' :
  between x y a s t -> between y z a' s' t' -> between x z (a ++ a') (s ++ s') (t ++ t').
Proof.
  intros (E1 & E2 & E3) (F1 & F2 & F3). unfold between. rewrite E1, E2, F1, F2, F3, E3, !app_assoc. repeat split.
Qed.
Lemma between_refl (x : world) : between x x [] [] [].
Proof. repeat split. symmetry. apply app_nil_r. Qed.
Lemma all_ready_app a s a' s' : all_ready a s -> all_ready a' s' -> all_ready (a ++ a') (s ++ s').
Proof. intros [H1 H2] [H3 H4]. split; apply Forall_app; split; assumption. Qed.
Lemma told_app {B} (r : poll B) a s a' s' : (strict -> all_ready a s) -> told r a' s' -> told r (a ++ a') (s ++ s').
Proof.
  intros H. destruct r as [|b]; cbn; [|intros H'; intros Hs; apply all_ready_app; auto].
  intros [Hc Hw]. split; [rewrite count_pend_app, count_true_app; lia|]. intros Hs. specialize (H Hs).
  destruct (Hw Hs) as [(b & -> & Hb)|(b & -> & Hb)]; [left|right].
  - exists (a ++ b). split; [apply app_assoc|]. now apply all_ready_app.
  - exists (s ++ b). split; [apply app_assoc|]. now apply all_ready_app.
Qed.
Lemma all_ready_nil : all_ready [] [].
Proof. split; constructor. Qed.

(** One poll. *)
Lemma good_poll {A} (p : async A) : good p -> forall x r x', poll_async p x = (r, x') ->
  exists a s t, between x x' a s t
    /\ match r with inl o => told (Ready o) a s | inr p' => good p' /\ told (@Pending unit) a s end.
Proof.
  induction 1 as [o|L B op l k Ho Hk IH]; intros x r x' E; cbn in E.
  - injection E as <- <-. exists [], [], []. split; [apply between_refl|intros _; apply all_ready_nil].
  - destruct (op l x) as [[q l'] x1] eqn:Q. destruct (Ho _ _ _ _ _ Q) as (a & s & t & Hb & Ht).
    destruct q as [|[b| | |]].
    + injection E as <- <-. exists a, s, t. split; [exact Hb|]. split; [|exact Ht]. now constructor.
    + destruct (IH _ _ _ _ E) as (a' & s' & t' & Hb' & Ht'). exists (a ++ a'), (s ++ s'), (t ++ t').
      split; [eapply between_trans; eassumption|]. destruct r as [o|p'].
      * exact (told_app (Ready o) _ _ _ _ Ht Ht').
      * destruct Ht' as [G Ht']. split; [exact G|]. exact (told_app (@Pending unit) _ _ _ _ Ht Ht').
    + injection E as <- <-. exists a, s, t. split; assumption.
    + injection E as <- <-. exists a, s, t. split; assumption.
    + injection E as <- <-. exists a, s, t. split; assumption.
Qed.

Lemma good_bind {A B} (p : async A) (f : A -> async B) : good p -> (forall a, good (f a)) -> good (abind p f).
Proof.
  intros H Hf. induction H as [[a| | |]|L T op l k Ho Hk IH]; cbn; try constructor; try assumption. apply Hf.
Qed.

(** ** The leaves *)
Lemma good_sync {B} (f : state -> outcome B * state) :
  (forall s o s', f s = (o, s') -> src_events (pr_stream (st_reader s)) = src_events (pr_stream (st_reader s')) /\ exists t, st_trace s' = st_trace s ++ t) ->
  good (sync f).
Proof.
  intros H. constructor; [|constructor]. intros l x r l' x' E. destruct (f (w_st x)) as [o s'] eqn:F. injection E as <- <- <-.
  destruct (H _ _ _ F) as [H1 [t H2]]. exists [], [], t. split; [|intros _; apply all_ready_nil]. now repeat split.
Qed.
Lemma good_read {B} (f : state -> B) : good (read f).
Proof. apply good_sync. intros s o s' E. injection E as <- <-. split; [reflexivity|]. exists []. symmetry. apply app_nil_r. Qed.
Lemma good_set_mail (m : state -> option mail_meta) : good (sync (fun s => (Ret tt, set_mail s (m s)))).
Proof. apply good_sync. intros s o s' E. injection E as <- <-. split; [reflexivity|]. exists []. symmetry. apply app_nil_r. Qed.
Lemma ask_used (x : world) b x' : ask x = (b, x') ->
  w_st x' = w_st x /\ exists s, w_sched x = s ++ w_sched x' /\ (if b then s = [true] else Forall (fun b => b = false) s).
Proof.
  unfold ask. destruct (w_sched x) as [|c l] eqn:E; intros H; injection H as <- <-.
  - split; [reflexivity|]. exists []. rewrite E. split; [reflexivity|constructor].
  - split; [reflexivity|]. exists [c]. split; [reflexivity|]. destruct c; [reflexivity|repeat constructor].
Qed.
Lemma goodop_user {B} (f : state -> B * state) :
  (forall s b s', f s = (b, s') -> src_events (pr_stream (st_reader s)) = src_events (pr_stream (st_reader s')) /\ exists t, st_trace s' = st_trace s ++ t) ->
  goodop (op_user f).
Proof.
  intros H l x r l' x' E. unfold op_user in E. destruct (ask x) as [b x1] eqn:A. destruct (ask_used _ _ _ A) as (E1 & s & E2 & E3).
  destruct b.
  - injection E as <- <- <-. exists [], s, []. split.
    + unfold between, events_of, trace_of. rewrite E1, app_nil_r. repeat split. exact E2.
    + apply told_waits. right. exists []. rewrite E3. split; [reflexivity|apply all_ready_nil].
  - destruct (f (w_st x1)) as [b s'] eqn:F. injection E as <- <- <-. destruct (H _ _ _ F) as [H1 [t H2]].
    exists [], s, t. split.
    + unfold between, events_of, trace_of. cbn. rewrite <- H1, H2, E1. repeat split. exact E2.
    + intros _. split; [constructor|exact E3].
Qed.
Lemma good_user {B} (f : state -> B * state) :
  (forall s b s', f s = (b, s') -> src_events (pr_stream (st_reader s)) = src_events (pr_stream (st_reader s')) /\ exists t, st_trace s' = st_trace s ++ t) ->
  good (a_user f).
Proof. intros H. constructor; [now apply goodop_user|constructor]. Qed.

Lemma with_poll_still (s : state) o s' : with_poll wr s = (o, s') ->
  st_reader s' = st_reader s /\ exists t, st_trace s' = st_trace s ++ t.
Proof.
  unfold with_poll. destruct (st_with s) as [b|].
  - cbn. destruct (w_send wr (st_w s) b) as [[|] w']; intros E; injection E as <- <-; cbn.
    + split; [reflexivity|]. now exists [OWrite b].
    + split; [reflexivity|]. exists []. symmetry. apply app_nil_r.
  - intros E. injection E as <- <-. split; [reflexivity|]. exists []. symmetry. apply app_nil_r.
Qed.
Lemma goodop_ready : goodop (op_ready (scheduled wr)).
Proof.
  intros l x r l' x' E. rewrite op_ready_scheduled in E. destruct (with_poll wr (w_st x)) as [o s1] eqn:P.
  destruct (with_poll_still _ _ _ P) as (R & t & T).
  assert (Hf : exists a s t, between x (upd x s1) a s t /\ (strict -> all_ready a s)).
  { exists [], [], t. split; [|intros _; apply all_ready_nil]. unfold between, events_of, trace_of. cbn. rewrite R. now repeat split. }
  destruct o as [[]| | |]; try (injection E as <- <- <-; exact Hf).
  destruct (ask (upd x s1)) as [b x1] eqn:A. destruct (ask_used _ _ _ A) as (E1 & s & E2 & E3). cbn in E1.
  destruct b.
  - injection E as <- <- <-. exists [], s, t. split.
    + unfold between, events_of, trace_of. rewrite E1, R. repeat split; assumption.
    + apply told_waits. right. exists []. rewrite E3. split; [reflexivity|apply all_ready_nil].
  - assert (G : exists r' w, (r, l', x') = (Ready r', tt, upd x1 (set_w (w_st x1) w))).
    { destruct (w_ready wr (st_w (w_st x1))) as [[|] w]; injection E as <- <- <-; do 2 eexists; reflexivity. }
    destruct G as (r' & w & G). injection G as -> -> ->. exists [], s, t. split.
    + unfold between, events_of, trace_of. cbn. rewrite E1, R. repeat split; assumption.
    + intros _. split; [constructor|exact E3].
Qed.
Lemma goodop_flush : goodop (op_flush (scheduled wr)).
Proof.
  intros l x r l' x' E. rewrite op_flush_scheduled in E. destruct (with_poll wr (w_st x)) as [o s1] eqn:P.
  destruct (with_poll_still _ _ _ P) as (R & t & T).
  assert (Hf : exists a s t, between x (upd x s1) a s t /\ (strict -> all_ready a s)).
  { exists [], [], t. split; [|intros _; apply all_ready_nil]. unfold between, events_of, trace_of. cbn. rewrite R. now repeat split. }
  destruct o as [[]| | |]; try (injection E as <- <- <-; exact Hf).
  destruct (ask (upd x s1)) as [b x1] eqn:A. destruct (ask_used _ _ _ A) as (E1 & s & E2 & E3). cbn in E1.
  destruct b.
  - injection E as <- <- <-. exists [], s, t. split.
    + unfold between, events_of, trace_of. rewrite E1, R. repeat split; assumption.
    + apply told_waits. right. exists []. rewrite E3. split; [reflexivity|apply all_ready_nil].
  - assert (G : exists r' w, (r, l', x') = (Ready r', tt, upd x1 (set_w (w_st x1) w))).
    { destruct (w_flush wr (st_w (w_st x1))) as [[|] w]; injection E as <- <- <-; do 2 eexists; reflexivity. }
    destruct G as (r' & w & G). injection G as -> -> ->. exists [], s, t. split.
    + unfold between, events_of, trace_of. cbn. rewrite E1, R. repeat split; assumption.
    + intros _. split; [constructor|exact E3].
Qed.
(** What polling a [Prependable] uses of its source. *)
Definition took {B} (r : poll B) (a : list event) : Prop :=
  match r with Ready _ => Forall is_chunk a | Pending => exists b, a = b ++ [Pend] /\ Forall is_chunk b end.
Lemma prep_poll_took p r p' : prep_poll p = (r, p') ->
  exists a, src_events (pr_stream p) = a ++ src_events (pr_stream p') /\ took r a.
Proof.
  unfold prep_poll. destruct (pr_prepended p) as [b|].
  - intros E. injection E as <- <-. exists []. split; [reflexivity|constructor].
  - destruct p as [[evs en ov] pp]. cbn. destruct evs as [|[|b] evs]; cbn; intros E; injection E as <- <-; cbn.
    + exists []. split; [reflexivity|constructor].
    + exists [Pend]. split; [reflexivity|]. exists []. split; [reflexivity|constructor].
    + exists [Chunk b]. split; [reflexivity|]. repeat constructor. now exists b.
Qed.
Definition ds_pend (r : ds_poll_result) : poll unit := match r with DPending => Pending | _ => Ready tt end.
Lemma ds_poll_loop_took fuel : forall d r d', ds_poll_loop fuel d = (r, d') ->
  exists a, src_events (pr_stream (ds_source d)) = a ++ src_events (pr_stream (ds_source d')) /\ took (ds_pend r) a.
Proof.
  assert (Hi : forall d r d', ds_iter d = (r, d') -> ds_source d' = ds_source d).
  { intros d r d' E. unfold ds_iter in E. destruct (find_split (ds_st d) (ds_buf d)) as [st [|n|n|n]].
    - destruct (ds_buf d); injection E as <- <-; reflexivity.
    - destruct (firstn n (ds_buf d)); injection E as <- <-; reflexivity.
    - destruct (firstn n (ds_buf d)); injection E as <- <-; reflexivity.
    - destruct (0 <? n); injection E as <- <-; reflexivity. }
  induction fuel as [|fuel IH]; intros d r d' E; cbn [ds_poll_loop] in E.
  - injection E as <- <-. exists []. split; [reflexivity|constructor].
  - destruct (ds_iter d) as [[x| |] d1] eqn:I; pose proof (Hi _ _ _ I) as S.
    + injection E as <- <-. rewrite S. exists []. split; [reflexivity|constructor].
    + destruct (IH _ _ _ E) as (a & E1 & T). rewrite S in E1. now exists a.
    + destruct (prep_poll (ds_source d1)) as [[|[b|]] p] eqn:P; destruct (prep_poll_took _ _ _ P) as (a & E1 & T); rewrite S in E1.
      * injection E as <- <-. now exists a.
      * destruct (IH _ _ _ E) as (a' & E2 & T'). cbn [ds_source] in E2. exists (a ++ a'). split; [rewrite E1, E2; apply app_assoc|].
        destruct (ds_pend r); cbn in *.
        -- destruct T' as (b' & -> & T'). exists (a ++ b'). split; [apply app_assoc|]. apply Forall_app; split; assumption.
        -- apply Forall_app; split; assumption.
      * injection E as <- <-. now exists a.
Qed.
Lemma goodop_next : goodop op_next.
Proof.
  intros l x r l' x' E. unfold op_next in E. destruct (prep_poll (st_reader (w_st x))) as [q p] eqn:P.
  destruct (prep_poll_took _ _ _ P) as (a & E1 & T).
  assert (B : forall y, y = upd x (set_reader (w_st x) p) -> between x y a [] []).
  { intros y ->. unfold between, events_of, trace_of. cbn. rewrite app_nil_r. now repeat split. }
  destruct q as [|b]; injection E as <- <- <-; exists a, [], []; (split; [now apply B|]).
  - apply told_waits. left. destruct T as (b & -> & T). exists b. split; [reflexivity|]. split; [exact T|constructor].
  - intros _. split; [exact T|constructor].
Qed.
Lemma goodop_stream : goodop op_stream.
Proof.
  intros l x r l' x' E. unfold op_stream in E. destruct (ds_poll (DS (st_reader (w_st x)) (fst l) (snd l))) as [q d] eqn:P.
  assert (T : exists a, src_events (pr_stream (st_reader (w_st x))) = a ++ src_events (pr_stream (ds_source d)) /\ took (ds_pend q) a).
  { unfold ds_poll in P. cbn [ds_st] in P. destruct (fst l); try exact (ds_poll_loop_took _ _ _ _ P).
    injection P as <- <-. exists []. split; [reflexivity|constructor]. }
  destruct T as (a & E1 & T).
  assert (B : forall y, y = upd x (set_reader (w_st x) (ds_source d)) -> between x y a [] []).
  { intros y ->. unfold between, events_of, trace_of. cbn. rewrite app_nil_r. now repeat split. }
  destruct q as [b| |]; injection E as <- <- <-; exists a, [], []; (split; [now apply B|]).
  - intros _. split; [exact T|constructor].
  - apply told_waits. left. destruct T as (b & -> & T). exists b. split; [reflexivity|]. split; [exact T|constructor].
  - intros _. split; [exact T|constructor].
Qed.

(** ** The future *)
Lemma good_prepend b : good (a_prepend b).
Proof.
  apply good_sync. intros s o s' E. unfold prep_prepend in E.
  destruct (pr_prepended (st_reader s)); injection E as <- <-; (split; [reflexivity|]); exists []; symmetry; apply app_nil_r.
Qed.
Lemma good_next_line : good a_next_line.
Proof.
  apply good_bind; [apply good_read|]. intros fuel.
  generalize (@nil N) as buf. intros buf. revert buf. induction fuel as [|fuel IH]; intros buf; cbn [a_next_line_loop]; [constructor|].
  constructor; [apply goodop_next|]. intros [pkt|].
  - cbv zeta. destruct (find_sub CRLF (buf ++ pkt)); [|apply IH]. apply good_bind; [apply good_prepend|constructor].
  - apply good_bind; [apply good_prepend|constructor].
Qed.
Lemma good_send_reply r : good (a_send_reply (scheduled wr) r).
Proof.
  unfold a_send_reply. destruct (byte_chunks _ _) as [chunks|]; [|constructor].
  induction chunks as [|t chunks IH]; cbn [a_send_chunks].
  - constructor; [apply goodop_flush|constructor].
  - destruct (reply_build _ _ t) as [rl|e]; [|constructor]. constructor; [apply goodop_ready|]. intros [].
    apply good_bind; [|intros; exact IH]. apply good_sync. intros s o s' E. unfold with_start_send in E.
    destruct (_ <? _)%nat; injection E as <- <-; (split; [reflexivity|]); exists []; symmetry; apply app_nil_r.
Qed.
Lemma good_say which : good (a_say (scheduled wr) which).
Proof. apply good_bind; [apply good_read|]. intros s. apply good_send_reply. Qed.
Lemma good_new_mail : good (a_user (call_new_mail cfg)).
Proof. apply good_user. intros s b s' E. injection E as <- <-. split; [reflexivity|]. now exists [ONewMail]. Qed.
Lemma good_filter_from f : good (a_user (call_filter_from cfg f)).
Proof.
  apply good_user. intros s b s' E. unfold call_filter_from in E. destruct (cf_filter_from cfg _ _ f) as [[[d c] u] f'].
  injection E as <- <-. split; [reflexivity|]. eexists. reflexivity.
Qed.
Lemma good_filter_to m t : good (a_user (call_filter_to cfg m t)).
Proof.
  apply good_user. intros s b s' E. unfold call_filter_to in E. destruct (cf_filter_to cfg _ _ m t) as [[[[d c] u] m'] t'].
  injection E as <- <-. split; [reflexivity|]. eexists. reflexivity.
Qed.
Lemma good_filter_data m : good (a_user (call_filter_data cfg m)).
Proof.
  apply good_user. intros s b s' E. unfold call_filter_data in E. destruct (cf_filter_data cfg _ _ m) as [[[d c] u] m'].
  injection E as <- <-. split; [reflexivity|]. eexists. reflexivity.
Qed.
Lemma good_log {B} (o : outcome B) (f : state -> state) (e : obs U) :
  (forall s, st_reader (f s) = st_reader s /\ st_trace (f s) = st_trace s) -> good (sync (fun s => (o, log (f s) e))).
Proof.
  intros H. apply good_sync. intros s o' s' E. injection E as <- <-. cbn. destruct (H s) as [-> ->]. split; [reflexivity|]. now exists [e].
Qed.
Lemma ds_complete_events d r d' : ds_complete d = (r, d') -> src_events (pr_stream (ds_source d)) = src_events (pr_stream (ds_source d')).
Proof.
  unfold ds_complete, prep_prepend. destruct (ds_st d); try (intros E; injection E as <- <-; reflexivity).
  destruct (ds_buf d); [intros E; injection E as <- <-; reflexivity|].
  destruct (pr_prepended (ds_source d)); intros E; injection E as <- <-; reflexivity.
Qed.
Lemma good_handler u0 m h : (strict -> handler_awaits h) -> forall t buf data cs, good (a_handler u0 m h t buf data cs).
Proof.
  assert (Hp : good (a_user (fun s : state => (st_reader s, s)))).
  { apply good_user. intros s b s' E. injection E as <- <-. split; [reflexivity|]. exists []. symmetry. apply app_nil_r. }
  induction h as [stop k IH|k IH|q IH|v c u]; intros Hs t buf data cs; cbn [a_handler]; (apply good_bind; [exact Hp|]); intros s.
  - apply good_bind; [|intros [[[items over] t'] buf']; apply IH; intros G; exact (Hs G items over)].
    generalize (S (ds_size (DS s t buf))) as fuel. generalize (@nil bytes) as acc. intros acc fuel. revert acc t buf.
    induction fuel as [|fuel IHf]; intros acc t buf; cbn [a_read_until]; destruct (stop acc); try constructor.
    + apply goodop_stream.
    + intros [[[b|] t'] buf']; [apply IHf|constructor].
  - apply good_bind; [|intros [[[| |] t'] buf']; [apply IH; intros G; exact (Hs G true)|apply IH; intros G; exact (Hs G false)|]].
    + apply good_sync. intros s' o s2 E. destruct (ds_complete (DS (st_reader s') t buf)) as [r d] eqn:D. injection E as <- <-.
      apply ds_complete_events in D. split; [exact D|]. exists []. symmetry. apply app_nil_r.
    + apply (good_log Panic (fun s => s)). now split.
  - apply good_bind; [|intros [[r t'] buf']; apply IH; intros G; destruct (Hs G)].
    constructor; [|constructor]. intros l x r l' x' E.
    destruct (ds_poll (DS (st_reader (w_st x)) t buf)) as [p d] eqn:P.
    assert (T : exists a, src_events (pr_stream (st_reader (w_st x))) = a ++ src_events (pr_stream (ds_source d))).
    { unfold ds_poll in P. cbn [ds_st] in P. destruct t; try (destruct (ds_poll_loop_took _ _ _ _ P) as (a & E1 & _); now exists a).
      injection P as <- <-. now exists []. }
    destruct T as (a & T). injection E as <- <- <-. exists a, [], [].
    split; [|intros G; destruct (Hs G)]. unfold between, events_of, trace_of. cbn. rewrite app_nil_r. now repeat split.
  - apply (good_log (Ret (v, t)) (fun s => set_cu s c u)). now split.
Qed.
Hypothesis strict_awaits : strict -> awaiting cfg.
Lemma good_line l : good (a_handle_line cfg (scheduled wr) (scheduled_user cfg) l).
Proof.
  assert (Hmail : forall f, good (a_mail_cmd cfg (scheduled wr) (scheduled_user cfg) f)).
  { intros f. apply good_bind; [apply good_read|]. intros mail. destruct mail; [apply good_say|].
    apply good_bind; [apply good_new_mail|]. intros _. apply good_bind; [apply good_filter_from|]. intros [[|code msg] f']; [|apply good_send_reply].
    apply good_bind; [apply good_say|]. intros _. apply (good_set_mail (fun _ => Some (Meta f' []))). }
  assert (Hrcpt : forall t, good (a_rcpt_cmd cfg (scheduled wr) (scheduled_user cfg) t)).
  { intros f. apply good_bind; [apply good_read|]. intros mail. destruct mail as [m|]; [|apply good_say].
    apply good_bind; [apply good_filter_to|]. intros [[[|code msg] m'] f']; [|apply good_send_reply].
    apply good_bind; [apply (good_set_mail (fun _ => Some (Meta (mm_from m') (mm_to m' ++ [f']))))|]. intros _. apply good_say. }
  assert (Hdata : good (a_data_cmd cfg (scheduled wr) (scheduled_user cfg))).
  { apply good_bind; [apply good_read|]. intros mail. destruct mail as [m|]; [|apply good_say].
    apply good_bind; [apply (good_set_mail (fun _ => None))|]. intros _. destruct (mm_to m).
    - apply good_bind; [apply good_say|]. intros _. apply (good_set_mail (fun _ => Some m)).
    - apply good_bind; [apply good_filter_data|]. intros [[|code msg] m'].
      + apply good_bind; [apply good_say|]. intros _.
        apply good_bind; [apply good_bind; [apply good_read|intros [[c2 u2] d2]; apply good_handler; intros G; apply (strict_awaits G)]|]. intros [v []]; try constructor. destruct v; [apply good_say|apply good_send_reply].
      + apply good_bind; [apply good_send_reply|]. intros _. apply (good_set_mail (fun _ => Some m')). }
  unfold a_handle_line. destruct (command_parse l) as [c|n| | |]; try apply good_say; [|constructor].
  destruct c; try apply good_say; [exact Hdata|apply Hmail|apply Hrcpt].
Qed.
Lemma good_future : good (interact_future cfg (scheduled wr)).
Proof.
  apply good_bind; [apply good_say|]. intros _. apply good_bind; [apply good_read|]. intros fuel.
  induction fuel as [|fuel IH]; cbn [a_loop]; [constructor|].
  apply good_bind; [apply good_next_line|]. intros [l|]; [|constructor]. apply good_bind; [apply good_line|]. intros _. exact IH.
Qed.
End Told.
