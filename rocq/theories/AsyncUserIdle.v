(** Any user code: a session that waits for a line. *)
From Verif Require Import Bytes Nom SmtpString Ip Message Reply Stream SpecData DataProofs StreamProofs Interact SinkFuture Async AsyncUser SpecAsync SpecPrompt SpecUser SpecUserWaits
  AsyncProofs AsyncWaits AsyncReplay AsyncUserProofs AsyncUserWaits AsyncUserFlush TruncProofs.
Notation replay := SpecAsync.replay.

(** ** The stream is not asked again after its end while something is left of it *)
Definition wf (p : prependable) : Prop := src_ended (pr_stream p) = true -> src_events (pr_stream p) = [].
Lemma wf_poll p r p' : prep_poll p = (r, p') -> wf p -> wf p'.
Proof.
  unfold prep_poll, wf. destruct (pr_prepended p) as [b|]; [now intros [= <- <-]|]. destruct p as [[evs en ov] pp]. cbn.
  destruct evs as [|[|b] evs]; cbn; intros [= <- <-]; cbn; auto; intros H En; specialize (H En); discriminate.
Qed.
Lemma pending_open p p' : prep_poll p = (Pending, p') -> wf p -> src_ended (pr_stream p') = false.
Proof.
  unfold prep_poll, wf. destruct (pr_prepended p) as [b|]; [discriminate|]. destruct p as [[evs en ov] pp]. cbn.
  destruct evs as [|[|b] evs]; cbn; intros [= <-]; cbn. intros H. destruct en; [|reflexivity]. now specialize (H eq_refl).
Qed.
Lemma iter_stream d : ds_source (snd (ds_iter d)) = ds_source d.
Proof.
  unfold ds_iter. destruct (find_split (ds_st d) (ds_buf d)) as [st [|n|n|n]].
  - destruct (ds_buf d); reflexivity.
  - destruct (firstn n (ds_buf d)); reflexivity.
  - destruct (firstn n (ds_buf d)); reflexivity.
  - destruct (0 <? n); reflexivity.
Qed.
Lemma wf_ds_loop f : forall d r d', ds_poll_loop f d = (r, d') -> wf (ds_source d) -> wf (ds_source d').
Proof.
  induction f as [|f IH]; intros d r d' E H; cbn [ds_poll_loop] in E; [now injection E as <- <-|].
  pose proof (iter_stream d) as Ei. destruct (ds_iter d) as [[x| |] d1]; cbn [snd] in Ei.
  - injection E as <- <-. now rewrite Ei.
  - apply (IH _ _ _ E). now rewrite Ei.
  - destruct (prep_poll (ds_source d1)) as [[|[b|]] p] eqn:P; rewrite Ei in P; pose proof (wf_poll _ _ _ P H) as Hp.
    + injection E as <- <-. exact Hp.
    + exact (IH _ _ _ E Hp).
    + injection E as <- <-. exact Hp.
Qed.
Lemma wf_ds_poll d r d' : ds_poll d = (r, d') -> wf (ds_source d) -> wf (ds_source d').
Proof. unfold ds_poll. destruct (ds_st d); try apply wf_ds_loop. intros [= <- <-]. auto. Qed.
Lemma wf_complete d r d' : ds_complete d = (r, d') -> wf (ds_source d) -> wf (ds_source d').
Proof.
  unfold ds_complete, prep_prepend. destruct (ds_st d); try (now intros [= <- <-]). destruct (ds_buf d); [now intros [= <- <-]|]. destruct (pr_prepended (ds_source d)); now intros [= <- <-].
Qed.
Lemma wf_run_hpoll {L C U} (h : hpoll L C U) : forall d data cs e d' data' cs', run_hpoll h d data cs = (e, d', data', cs') -> wf (ds_source d) -> wf (ds_source d').
Proof.
  induction h as [k IH|k IH|l c u|v c u|]; intros d data cs e d' data' cs' E H; cbn in E; try (now injection E as <- <- <- <-).
  - destruct (ds_poll d) as [q d1] eqn:Q. pose proof (wf_ds_poll _ _ _ Q H) as H1. destruct q as [b| |]; [exact (IH _ _ _ _ _ _ _ _ E H1)..|now injection E as <- <- <- <-].
  - destruct (ds_complete d) as [q d1] eqn:Q. pose proof (wf_complete _ _ _ Q H) as H1. destruct q; [exact (IH _ _ _ _ _ _ _ _ E H1)..|now injection E as <- <- <- <-].
Qed.

(** ** Programs and the polls they make *)
Section Ops.
Context {C U W : Type}.
Notation world := (@world C U W).
Notation async := (@async C U W).
Variable Q : forall L B, (L -> world -> poll (outcome B) * L * world) -> Prop.
Arguments Q {L B} _.
Inductive ops {A} : async A -> Prop :=
| op_done o : ops (ADone o)
| op_await L B (op : L -> world -> poll (outcome B) * L * world) l k : Q op -> (forall b, ops (k b)) -> ops (AAwait op l k).
Lemma ops_bind {A B} (p : async A) (f : A -> async B) : ops p -> (forall a, ops (f a)) -> ops (abind p f).
Proof. intros H Hf. induction H as [[a| | |]|L T op l k Ho Hk IH]; cbn; try constructor; auto. Qed.
Lemma ops_op {L B} (op : L -> world -> poll (outcome B) * L * world) l : Q op -> ops (AAwait op l (fun b => ADone (Ret b))).
Proof. intros H. constructor; [exact H|]. intros b. constructor. Qed.
End Ops.

Section Idle.
Context {C U K : Type}.
Variable ac : aconfig C U.
Variable ks : @ksink K.
Variable waits : C -> nat.
Variable allowed : answer C U -> Prop.
Hypothesis Hac : counts_waits waits ac.
Notation state := (@st C U (K * list call)).
Notation world := (@world C U (K * list call)).
Notation async := (@async C U (K * list call)).
Notation out := (any_sink (C := C) (U := U) (recording ks)).
Notation count x := (waits (st_cfg (w_st x))).
Notation cfg' := (answering allowed (ac_replies ac)).
Notation good := (AsyncUserWaits.good waits).

(** *** The stream *)
Definition wfw (x : world) : Prop := wf (st_reader (w_st x)).
Definition wfop {L B} (op : L -> world -> poll (outcome B) * L * world) : Prop := forall l x r l' x', op l x = (r, l', x') -> wfw x -> wfw x'.
Notation wfp := (ops (fun L B => @wfop L B)).
Lemma wf_polled {A} (p : async A) : wfp p -> forall x r x', poll_async p x = (r, x') -> wfw x -> wfw x' /\ match r with inr q => wfp q | inl _ => True end.
Proof.
  induction 1 as [o|L B op l k Ho Hk IH]; intros x r x' E H; cbn in E; [injection E as <- <-; now split|].
  destruct (op l x) as [[q l'] x1] eqn:Q. pose proof (Ho _ _ _ _ _ Q H) as H1. destruct q as [|[b| | |]]; try (injection E as <- <-; now split).
  - injection E as <- <-. split; [exact H1|]. now constructor.
  - exact (IH _ _ _ _ E H1).
Qed.
Lemma wf_sync {B} (f : state -> outcome B * state) : (forall s, pr_stream (st_reader (snd (f s))) = pr_stream (st_reader s)) -> wfp (sync f).
Proof.
  intros H. apply ops_op. intros l x r l' x' E. specialize (H (w_st x)). destruct (f (w_st x)) as [o s]. injection E as <- <- <-.
  unfold wfw, wf. cbn in *. now rewrite H.
Qed.
Lemma with_poll_stream (s : state) : st_reader (snd (with_poll (@sender C U _ out) s)) = st_reader s.
Proof.
  unfold with_poll. destruct (st_with s) as [b|]; [|reflexivity]. cbv zeta. destruct (w_send (@sender C U _ out) _ b) as [[|] w]; reflexivity.
Qed.
Lemma wf_parts (which : config C U -> C -> N * bytes) l : wfp (a_say out (which (ac_replies ac))) /\ wfp (@a_next_line C U (K * list call)) /\ wfp (a_handle_line (ac_replies ac) out (any_user ac) l).
Proof.
  assert (Hr : forall B (f : state -> B), wfp (read f)) by (intros B f; apply wf_sync; reflexivity).
  assert (Hf : forall X (f : ufuture (C * U * X) decision) v (finish : decision -> X -> state -> state), (forall d v s, st_reader (finish d v s) = st_reader s) -> wfp (a_filter f v finish)).
  { intros X f v finish Hs. apply ops_op. intros l0 x r l' x' E. unfold op_filter in E. destruct (uf_poll f (fst l0) _) as [[[|[d|]] l1] [[c u] v1]]; injection E as <- <- <-; auto.
    unfold wfw. cbn. now rewrite Hs. }
  assert (Hd : forall A (o : outcome A), wfp (@ADone C U (K * list call) A o)) by (intros A o; constructor).
  assert (Hb : forall A B (p : async A) (f : A -> async B), wfp p -> (forall a, wfp (f a)) -> wfp (abind p f)) by (intros A B p f; apply ops_bind).
  assert (Hm : forall o, wfp (sync (fun s : state => (Ret tt, set_mail s o)))) by (intros o; now apply wf_sync).
  assert (Hp : forall b, wfp (@a_prepend C U (K * list call) b)).
  { intros b. apply wf_sync. intros s. unfold prep_prepend. destruct (pr_prepended (st_reader s)); reflexivity. }
  assert (Hs : forall r, wfp (sync (fun s : state => with_start_send s r))) by (intros r; apply wf_sync; intros s; unfold with_start_send; destruct (_ <? _)%nat; reflexivity).
  assert (Hn : wfp (AAwait (@op_next C U (K * list call)) tt (fun b => ADone (Ret b)))).
  { apply ops_op. intros l0 x r l' x' E. unfold op_next in E. destruct (prep_poll (st_reader (w_st x))) as [q p] eqn:Q.
    assert (Ex : x' = upd x (set_reader (w_st x) p)) by (destruct q; now injection E). subst x'. exact (wf_poll _ _ _ Q). }
  assert (Hy : wfp (AAwait (op_ready out) tt (fun b => ADone (Ret b)))).
  { apply ops_op. intros l0 x r l' x' E H. unfold op_ready in E. pose proof (with_poll_stream (w_st x)) as P.
    destruct (with_poll (@sender C U _ out) (w_st x)) as [o s]. cbn [snd] in P. unfold wfw in *. rewrite <- P in H.
    destruct o as [[]| | |]; [|injection E as <- <- <-; exact H..]. destruct s as [c u m rd [k h] wi tr]. cbn in E. destruct (k_ready ks k) as [a k']. cbn in E.
    destruct a as [|[|]]; injection E as <- <- <-; exact H. }
  assert (Hfl : wfp (AAwait (op_flush out) tt (fun b => ADone (Ret b)))).
  { apply ops_op. intros l0 x r l' x' E H. unfold op_flush in E. pose proof (with_poll_stream (w_st x)) as P.
    destruct (with_poll (@sender C U _ out) (w_st x)) as [o s]. cbn [snd] in P. unfold wfw in *. rewrite <- P in H.
    destruct o as [[]| | |]; [|injection E as <- <- <-; exact H..]. destruct s as [c u m rd [k h] wi tr]. cbn in E. destruct (k_flush ks k) as [a k']. cbn in E.
    destruct a as [|[|]]; injection E as <- <- <-; exact H. }
  split; [|split].
  - apply (walk_say out (fun A (p : async A) => wfp p)); auto.
  - apply (walk_line (fun A (p : async A) => wfp p)); auto.
  - apply (walk_handle_line (ac_replies ac) out (any_user ac) (fun A (p : async A) => wfp p)); auto.
    + apply ops_op. intros l0 x r l' x' E. unfold op_new_mail in E. destruct (uf_poll (ac_new_mail ac) l0 _) as [[[|[d|]] l1] c]; injection E as <- <- <-; auto.
    + intros from. apply ops_bind; [apply Hr|]. intros u0. now apply Hf.
    + intros m to. apply ops_bind; [apply Hr|]. intros u0. apply ops_bind; [now apply Hf|]. intros [d [m' to']]. constructor.
    + intros m. apply ops_bind; [apply Hr|]. intros u0. now apply Hf.
    + intros m. apply ops_bind; [apply Hr|]. intros u0. apply ops_op. intros [[[[h t] buf] data] cs] x r l' x' E H. unfold op_handle in E. cbv zeta in E.
      destruct (run_hpoll _ _ data cs) as [[[e d] data'] cs'] eqn:Q. pose proof (wf_run_hpoll _ _ _ _ _ _ _ _ Q H) as H1.
      destruct e as [h' c u|v c u| | |]; injection E as <- <- <-; exact H1.
Qed.
Lemma wf_polls {A} n : forall (p : async A), wfp p -> forall x r x', after_polls n p x = (r, x') -> wfw x -> wfw x'.
Proof.
  induction n as [|n IH]; intros p Hp x r x' E H; cbn in E; [now injection E as <- <-|].
  destruct (poll_async p x) as [[o|q] x1] eqn:P; destruct (wf_polled p Hp _ _ _ P H) as [H1 H2]; [now injection E as <- <-|]. exact (IH _ H2 _ _ _ E H1).
Qed.

(** *** Who answers [Pending] *)
Definition quiet (x y : world) : Prop := count y = count x /\ not_ready (calls y) = not_ready (calls x).
Lemma quiet_refl x : quiet x x. Proof. now split. Qed.
Lemma quiet_trans x y z : quiet x y -> quiet y z -> quiet x z.
Proof. unfold quiet. intuition congruence. Qed.
Lemma quiet_back x y z : quiet x y -> quiet x z -> quiet y z.
Proof. unfold quiet. intuition congruence. Qed.
Lemma quiet_ready {A} (p : async A) : good p -> forall x a x', poll_async p x = (inl (Ret a), x') -> quiet x x'.
Proof.
  intros G x a x' E. destruct (good_poll waits p G _ _ _ E) as (evs & rec & [_ S2] & H1 & H2). split; [exact H1|]. rewrite S2, not_ready_app. lia.
Qed.
(** A program that waits for the user or the sink only. *)
Definition loud {L B} (op : L -> world -> poll (outcome B) * L * world) : Prop :=
  goodop waits op /\ forall l x l' x', op l x = (Pending, l', x') -> ~ quiet x x'.
Notation busy := (ops (fun L B => @loud L B)).
Lemma busy_poll {A} (p : async A) : busy p -> forall x q x', poll_async p x = (inr q, x') -> busy q /\ ~ quiet x x'.
Proof.
  induction 1 as [o|L B op l k [Hg Ho] Hk IH]; intros x q x' E; cbn in E; [discriminate|].
  destruct (op l x) as [[r l'] x1] eqn:Q. destruct r as [|[b| | |]]; try discriminate.
  - injection E as <- <-. split; [now constructor|]. exact (Ho _ _ _ _ Q).
  - destruct (IH _ _ _ _ E) as [H1 H2]. split; [exact H1|]. intros Hq. apply H2. refine (quiet_back _ _ _ _ Hq).
    destruct (Hg _ _ _ _ _ Q) as (evs & rec & [_ S2] & [H|[H3 H4]]); [discriminate|]. split; [exact H3|]. rewrite S2, not_ready_app. lia.
Qed.
Lemma busy_polls {A} n : forall (p : async A), busy p -> forall x q x', after_polls n p x = (inr q, x') -> busy q.
Proof.
  induction n as [|n IH]; intros p H x q x' E; cbn in E; [now injection E as <- <-|].
  destruct (poll_async p x) as [[o|p1] x1] eqn:P; [discriminate|]. destruct (busy_poll p H _ _ _ P) as [H1 _]. eauto.
Qed.
Lemma busy_sync {B} (f : state -> outcome B * state) : (forall s, st_cfg (snd (f s)) = st_cfg s /\ st_w (snd (f s)) = st_w s
  /\ src_events (pr_stream (st_reader (snd (f s)))) = src_events (pr_stream (st_reader s))) -> busy (sync f).
Proof.
  intros H. apply ops_op. split.
  - intros l x r l' x' E. destruct (H (w_st x)) as (H1 & H2 & H3). destruct (f (w_st x)) as [o s]. injection E as <- <- <-. cbn in *.
    exists [], []. split; [split; [unfold events_of; cbn; now rewrite H3|unfold calls; cbn; now rewrite H2, app_nil_r]|]. right. cbn. rewrite H1. now split.
  - intros l x l' x' E. destruct (f (w_st x)). discriminate.
Qed.
Lemma loud_sink {L B} (op : L -> world -> poll (outcome B) * L * world) : goodop waits op ->
  (forall l x l' x', op l x = (Pending, l', x') -> exists h r, calls x' = h ++ [r] /\ (r = CReady Pending \/ r = CFlush Pending) /\ not_ready h = not_ready (calls x)) -> loud op.
Proof.
  intros G H. split; [exact G|]. intros l x l' x' E [_ Hq]. destruct (H _ _ _ _ E) as (h & r & Ec & Hr & Hn). rewrite Ec, not_ready_app in Hq.
  destruct Hr as [-> | ->]; cbn in Hq; lia.
Qed.
Lemma with_poll_calls (s : state) o s' : with_poll (@sender C U _ out) s = (o, s') -> not_ready (snd (st_w s')) = not_ready (snd (st_w s)).
Proof.
  intros E. destruct (with_poll_quiet ks waits (World s [])) as (rec & [_ S2] & _ & S3). unfold calls in S2. cbn in S2. rewrite E in S2. cbn in S2. rewrite S2, not_ready_app. lia.
Qed.
Lemma loud_ready : loud (op_ready out).
Proof.
  apply loud_sink; [apply good_ready|]. intros l x l' x' E. unfold op_ready in E. destruct (with_poll (@sender C U _ out) (w_st x)) as [o s] eqn:P.
  apply with_poll_calls in P. destruct o as [[]| | |]; try discriminate. destruct s as [c u m rd [k h] wi tr]. cbn in E, P.
  destruct (k_ready ks k) as [[|[|]] k']; try discriminate. injection E as <- <-. exists h, (CReady Pending). auto.
Qed.
Lemma loud_flush : loud (op_flush out).
Proof.
  apply loud_sink; [apply good_flush|]. intros l x l' x' E. unfold op_flush in E. destruct (with_poll (@sender C U _ out) (w_st x)) as [o s] eqn:P.
  apply with_poll_calls in P. destruct o as [[]| | |]; try discriminate. destruct s as [c u m rd [k h] wi tr]. cbn in E, P.
  destruct (k_flush ks k) as [[|[|]] k']; try discriminate. injection E as <- <-. exists h, (CFlush Pending). auto.
Qed.
Lemma busy_reply r : busy (a_send_reply out r).
Proof.
  apply (walk_reply out (fun A (p : async A) => busy p)).
  - intros A o. constructor.
  - intros A B p f. apply ops_bind.
  - intros r0. apply busy_sync. intros s. unfold with_start_send. destruct (_ <? _)%nat; now repeat split.
  - apply ops_op, loud_ready.
  - apply ops_op, loud_flush.
Qed.
Lemma busy_read {B} (f : state -> B) : busy (read f).
Proof. apply busy_sync. now repeat split. Qed.
Lemma busy_say which : busy (a_say out which).
Proof. apply ops_bind; [apply busy_read|]. intros r. apply busy_reply. Qed.
Lemma loud_filter {X} (f : ufuture (C * U * X) decision) v (finish : decision -> X -> state -> state) :
  counts (fun s => waits (fst (fst s))) f ->
  (forall d v s, st_cfg (finish d v s) = st_cfg s /\ st_w (finish d v s) = st_w s /\ st_reader (finish d v s) = st_reader s) -> busy (a_filter f v finish).
Proof.
  intros Hf Hs. apply ops_op. split.
  - intros l x r l' x' E. unfold op_filter in E.
    destruct (uf_poll f (fst l) _) as [[q l1] [[c u] v1]] eqn:Q. pose proof (Hf _ _ _ _ _ Q) as Hw. cbn in Hw.
    exists [], []. destruct q as [|[d|]]; injection E as <- <- <-.
    + split; [split; [reflexivity|unfold calls; cbn; now rewrite app_nil_r]|]. cbn. auto.
    + destruct (Hs d v1 (set_cu (w_st x) c u)) as (H1 & H2 & H3). split; [split; [unfold events_of; cbn; now rewrite H3|unfold calls; cbn; rewrite H2; cbn; now rewrite app_nil_r]|].
      right. cbn. rewrite H1. cbn. auto.
    + split; [split; [reflexivity|unfold calls; cbn; now rewrite app_nil_r]|]. now left.
  - intros l x l' x' E. unfold op_filter in E. destruct (uf_poll f (fst l) _) as [[[|[d|]] l1] [[c u] v1]] eqn:Q; try discriminate.
    pose proof (Hf _ _ _ _ _ Q) as Hw. cbn in Hw. injection E as <- <-. intros [Hq _]. cbn in Hq. lia.
Qed.
Lemma busy_line l : busy (a_handle_line (ac_replies ac) out (any_user ac) l).
Proof.
  apply (walk_handle_line (ac_replies ac) out (any_user ac) (fun A (p : async A) => busy p)).
  - intros A o. constructor.
  - intros A B p f. apply ops_bind.
  - intros B f. apply busy_read.
  - intros o. apply busy_sync. now repeat split.
  - intros r0. apply busy_sync. intros s. unfold with_start_send. destruct (_ <? _)%nat; now repeat split.
  - apply ops_op, loud_ready.
  - apply ops_op, loud_flush.
  - apply ops_op. split; [now apply good_new_mail|]. intros l0 x l' x' E. unfold op_new_mail in E. destruct (uf_poll (ac_new_mail ac) l0 _) as [[[|[d|]] l1] c] eqn:Q; try discriminate.
    pose proof (cw_new_mail _ _ Hac _ _ _ _ _ Q) as Hw. cbn in Hw. injection E as <- <-. intros [Hq _]. cbn in Hq. lia.
  - intros from. apply ops_bind; [apply busy_read|]. intros u0. apply loud_filter; [apply (cw_filter_from _ _ Hac)|now repeat split].
  - intros m to. apply ops_bind; [apply busy_read|]. intros u0. apply ops_bind; [apply loud_filter; [apply (cw_filter_to _ _ Hac)|now repeat split]|]. intros [d [m' to']]. constructor.
  - intros m. apply ops_bind; [apply busy_read|]. intros u0. apply loud_filter; [apply (cw_filter_data _ _ Hac)|now repeat split].
  - intros m. apply ops_bind; [apply busy_read|]. intros u0. apply ops_op. split; [now apply good_handle|].
    intros [[[[h t] buf] data] cs] x l' x' E. unfold op_handle in E. cbv zeta in E. destruct (run_hpoll _ _ data cs) as [[[e d] data'] cs'] eqn:Q.
    destruct (run_hpoll_counts waits _ _ _ _ _ _ _ _ _ (cw_handle_mail _ _ Hac m h _ _ _) Q) as (_ & Hw).
    destruct e as [h' c u|v c u| | |]; try discriminate. injection E as <- <-. intros [Hq _]. cbn in Hq. lia.
Qed.
Lemma good_busy {A} (p : async A) : busy p -> good p.
Proof. induction 1 as [o|L B op l k [Hg _] Hk IH]; constructor; auto. Qed.

(** *** Where the last poll ended *)
Lemma last_bind {A B} (f : A -> async B) n : forall (p : async A) x p1 xl r x', good p ->
  after_polls n (abind p f) x = (inr p1, xl) -> poll_async p1 xl = (inr r, x') ->
  (exists q0 q, after_polls n p x = (inr q0, xl) /\ poll_async q0 xl = (inr q, x'))
  \/ (exists a k m x1 p2 y, after_polls k p x = (inl (Ret a), x1) /\ after_polls m (f a) x1 = (inr p2, y) /\ poll_async p2 y = (inr r, x') /\ quiet xl y).
Proof.
  induction n as [|n IH]; intros p x p1 xl r x' G E P; cbn [after_polls] in E.
  - injection E as <- <-. rewrite poll_bind in P. destruct (poll_async p x) as [[[a| | |]|q] x1] eqn:Q; try discriminate.
    + right. exists a, 1, 0, x1, (f a), x1. cbn. rewrite Q. split; [reflexivity|]. split; [reflexivity|]. split; [exact P|]. exact (quiet_ready p G _ _ _ Q).
    + injection P as <- <-. left. now exists p, q.
  - rewrite poll_bind in E. destruct (poll_async p x) as [[[a| | |]|q] x1] eqn:Q; try discriminate.
    + destruct (poll_async (f a) x1) as [[o|p3] x3] eqn:Q3; [discriminate|]. right. exists a, 1, (S n), x1, p1, xl. cbn. rewrite Q, Q3.
      split; [reflexivity|]. split; [exact E|]. split; [exact P|apply quiet_refl].
    + destruct (good_poll waits p G _ _ _ Q) as (_ & _ & _ & G1 & _). destruct (IH _ _ _ _ _ _ G1 E P) as [(q0 & q1 & H1 & H2)|(a & k & m & x2 & p2 & y & H1 & H2 & H3 & H4)].
      * left. exists q0, q1. cbn. rewrite Q. now split.
      * right. exists a, (S k), m, x2, p2, y. cbn [after_polls]. rewrite Q. split; [exact H1|]. split; [exact H2|]. split; [exact H3|exact H4].
Qed.
(** In a line that started at [xi]. *)
Definition front (p : prependable) : bytes := match pr_prepended p with Some b => b | None => [] end.
Definition reading (xi : world) (buf : bytes) (x : world) : Prop := find_sub CRLF buf = None /\ exists T, x = upd xi (set_reader (w_st xi) (st_reader (w_st x)))
  /\ src_events (pr_stream (st_reader (w_st xi))) = T ++ events_of x /\ buf ++ front (st_reader (w_st x)) = front (st_reader (w_st xi)) ++ ev_text T
  /\ src_ended (pr_stream (st_reader (w_st x))) = src_ended (pr_stream (st_reader (w_st xi))).
Lemma reading_start xi : reading xi [] xi.
Proof. split; [reflexivity|]. exists []. split; [destruct xi as [[] ?]; reflexivity|]. split; [reflexivity|]. split; [|reflexivity]. unfold ev_text. cbn. now rewrite app_nil_r. Qed.
Lemma reading_next xi buf x r l x' : reading xi buf x -> op_next tt x = (r, l, x') ->
  match r with
  | Pending => reading xi buf x' /\ front (st_reader (w_st x')) = [] /\ (wfw x -> src_ended (pr_stream (st_reader (w_st x'))) = false)
  | Ready (Ret (Some pkt)) => find_sub CRLF (buf ++ pkt) = None -> reading xi (buf ++ pkt) x'
  | _ => True
  end.
Proof.
  intros (H0 & T & Ex & Ee & Eb & En) E. unfold op_next in E. destruct (prep_poll (st_reader (w_st x))) as [q p] eqn:Q.
  assert (Ex' : x' = upd xi (set_reader (w_st xi) p)).
  { assert (x' = upd x (set_reader (w_st x) p)) as -> by (destruct q; now injection E). rewrite Ex. reflexivity. }
  assert (Er : r = match q with Pending => Pending | Ready b => Ready (Ret b) end) by (destruct q; now injection E). subst r x'. clear E.
  pose proof (pending_open (st_reader (w_st x))) as Ho. unfold wfw. unfold events_of in Ee.
  unfold prep_poll in Q. destruct (st_reader (w_st x)) as [[evs en ov] [b|]]; cbn in Q, Ee, Eb, En.
  - injection Q as <- <-. intros Hn. split; [exact Hn|]. exists T. split; [reflexivity|]. split; [exact Ee|]. split; [|exact En]. cbn. now rewrite app_nil_r.
  - rewrite app_nil_r in Eb. destruct evs as [|[|b] evs]; cbn in Q; injection Q as <- <-.
    + exact I.
    + split; [|split; [reflexivity|exact (Ho _ eq_refl)]]. split; [exact H0|]. exists (T ++ [Pend]). split; [reflexivity|]. split; [cbn; now rewrite <- app_assoc|].
      split; [|exact En]. cbn. unfold ev_text. rewrite map_app, concat_app. cbn. rewrite !app_nil_r. exact Eb.
    + intros Hn. split; [exact Hn|]. exists (T ++ [Chunk b]). split; [reflexivity|]. split; [cbn; now rewrite <- app_assoc|].
      split; [|exact En]. cbn. unfold ev_text in *. rewrite map_app, concat_app. cbn. rewrite !app_nil_r, app_assoc. now rewrite <- Eb.
Qed.
Definition line_state (xi : world) (q : async (option bytes)) (x : world) : Prop :=
  exists fuel buf, q = a_next_line_loop fuel buf /\ reading xi buf x.
Lemma next_line_unfold fuel buf : @a_next_line_loop C U (K * list call) (S fuel) buf = AAwait op_next tt (fun r =>
      match r with
      | Some pkt =>
          let buf := buf ++ pkt in
          match find_sub CRLF buf with
          | Some pos => abind (a_prepend (skipn (pos + 2) buf)) (fun _ => ADone (Ret (Some (firstn (pos + 2) buf))))
          | None => a_next_line_loop fuel buf
          end
      | None => abind (a_prepend buf) (fun _ => ADone (Ret None))
      end).
Proof. reflexivity. Qed.
Lemma prepend_ready b (o : option bytes) x q x' : poll_async (abind (@a_prepend C U (K * list call) b) (fun _ => ADone (Ret o))) x = (inr q, x') -> False.
Proof. cbn. destruct (prep_prepend (st_reader (w_st x)) b); discriminate. Qed.
Lemma line_poll xi fuel : forall buf x q x', reading xi buf x -> poll_async (a_next_line_loop fuel buf) x = (inr q, x') ->
  line_state xi q x' /\ front (st_reader (w_st x')) = [] /\ (wfw x -> src_ended (pr_stream (st_reader (w_st x'))) = false).
Proof.
  induction fuel as [|fuel IH]; intros buf x q x' H E; [discriminate|]. rewrite next_line_unfold in E. cbn [poll_async] in E.
  destruct (op_next tt x) as [[r l] x1] eqn:P. pose proof (reading_next _ _ _ _ _ _ H P) as Hn. destruct r as [|[[pkt|]| | |]]; try discriminate.
  - injection E as <- <-. destruct Hn as (H1 & H2 & H3). split; [|now split]. destruct l. exists (S fuel), buf. now split.
  - cbv zeta in E. destruct (find_sub CRLF (buf ++ pkt)) eqn:F; [destruct (prepend_ready _ _ _ _ _ E)|]. specialize (Hn eq_refl).
    destruct (IH _ _ _ _ Hn E) as (H1 & H2 & H3). split; [exact H1|]. split; [exact H2|]. intros Hw. apply H3. unfold op_next in P.
    destruct (prep_poll (st_reader (w_st x))) as [[|r] p] eqn:Q; [discriminate|]. injection P as -> <- <-. exact (wf_poll _ _ _ Q Hw).
  - destruct (prepend_ready _ _ _ _ _ E).
Qed.
Lemma line_polls xi n : forall x q x', (line_state xi q x) -> forall q', after_polls n q x = (inr q', x') -> line_state xi q' x'.
Proof.
  induction n as [|n IH]; intros x q x' H q' E; cbn in E; [now injection E as <- <-|]. destruct (poll_async q x) as [[o|q1] x1] eqn:P; [discriminate|].
  destruct H as (fuel & buf & -> & H). destruct (line_poll _ _ _ _ _ _ H P) as (H1 & _). exact (IH _ _ _ H1 _ E).
Qed.
Lemma line_waits n xi q0 xl q x' : after_polls n (@a_next_line C U (K * list call)) xi = (inr q0, xl) -> poll_async q0 xl = (inr q, x') ->
  (exists buf, reading xi buf x') /\ front (st_reader (w_st x')) = [] /\ (wfw xl -> src_ended (pr_stream (st_reader (w_st x'))) = false).
Proof.
  assert (E1 : forall q1 x1, poll_async (@a_next_line C U (K * list call)) xi = (inr q1, x1) ->
    poll_async (a_next_line_loop (length (src_events (pr_stream (st_reader (w_st xi)))) + 2) []) xi = (inr q1, x1)).
  { intros q1 x1. unfold a_next_line. rewrite poll_bind. cbn [poll_async read sync w_st]. unfold upd. destruct xi as [s sch]. cbn [w_st w_sched]. exact (fun H => H). }
  intros E P. assert (G : forall fuel buf x q x', reading xi buf x -> poll_async (a_next_line_loop fuel buf) x = (inr q, x') ->
    (exists buf, reading xi buf x') /\ front (st_reader (w_st x')) = [] /\ (wfw x -> src_ended (pr_stream (st_reader (w_st x'))) = false)).
  { intros fuel buf x q1 x1 H Q. destruct (line_poll _ _ _ _ _ _ H Q) as ((f' & b' & _ & H1) & H2). split; [now exists b'|exact H2]. }
  destruct n as [|n]; cbn [after_polls] in E.
  - injection E as <- <-. apply E1 in P. exact (G _ _ _ _ _ (reading_start xi) P).
  - pose proof (E1) as E2. destruct (poll_async (@a_next_line C U (K * list call)) xi) as [[o|q1] x1] eqn:Q; [discriminate|]. clear E1. specialize (E2 _ _ eq_refl). clear Q. rename E2 into Q.
    destruct (line_poll _ _ _ _ _ _ (reading_start xi) Q) as (H1 & _). destruct (line_polls _ _ _ _ _ H1 _ E) as (f & b & -> & H2). exact (G _ _ _ _ _ H2 P).
Qed.

(** *** Which line *)
Hypothesis R_line : forall l, Rw ac allowed (fun _ => True) (a_handle_line (ac_replies ac) out (any_user ac) l) (handle_line cfg' replay l).
Notation sees := (@AsyncUserProofs.sees C U K).
Notation enc := (@AsyncUserProofs.enc C U K allowed).
Definition follows {X} (x xi : world) (F : @st (C * list {a : answer C U | allowed a}) U (list bool) -> outcome X * st) (a : X) : Prop :=
  exists ua rec t, sees x xi rec t /\ tells ac allowed (inl (Ret a)) x xi ua t
  /\ forall ua' wa', F (enc (w_st x) (ua ++ ua') (final_answers rec ++ wa')) = (Ret a, enc (w_st xi) ua' wa').
Lemma follows_R {X} (p : async X) F n x a xi : Rw ac allowed (fun _ => True) p F -> after_polls n p x = (inl (Ret a), xi) -> follows x xi F a.
Proof. intros [_ H] E. destruct (H _ _ _ _ I E) as (ua & rec & t & S1 & T1 & A1). exists ua, rec, t. auto. Qed.
Lemma follows_refl x : follows x x (after_lines cfg' replay 0) tt.
Proof.
  exists [], [], []. split; [apply sees_refl|]. split; [apply tells_nil; auto|]. reflexivity.
Qed.
Lemma follows_trans {X Y} x y z F a G b : @follows X x y F a -> @follows Y y z (G a) b -> follows x z (fun s => andthen (F s) G) b.
Proof.
  intros (ua & rec & t & S1 & T1 & A1) (ua2 & rec2 & t2 & S2 & T2 & A2). exists (ua ++ ua2), (rec ++ rec2), (t ++ t2).
  split; [eapply sees_trans; eassumption|]. split; [eapply tells_go; eassumption|]. intros ua' wa'. rewrite final_app, <- !app_assoc, A1. cbn [andthen]. apply A2.
Qed.
Lemma follows_eq {X} x y (F F' : _ -> outcome X * _) a : (forall s, F s = F' s) -> follows x y F a -> follows x y F' a.
Proof. intros H (ua & rec & t & S1 & T1 & A1). exists ua, rec, t. split; [exact S1|]. split; [exact T1|]. intros ua' wa'. now rewrite <- H. Qed.
Lemma good_next_line : good (@a_next_line C U (K * list call)).
Proof.
  apply (walk_line (fun A (p : async A) => good p)).
  - intros A o. constructor.
  - intros A B p f. apply good_bind.
  - intros B f. apply good_sync. now repeat split.
  - intros b. apply good_sync. intros s. unfold prep_prepend. destruct (pr_prepended (st_reader s)); now repeat split.
  - apply good_op, good_next.
Qed.
Lemma loop_waits fuel : forall n x p1 xl r x', after_polls n (a_loop (ac_replies ac) out (any_user ac) fuel) x = (inr p1, xl) ->
  poll_async p1 xl = (inr r, x') -> quiet xl x' -> wfw x -> clean (w_st x) ->
  exists j xi m y q0 q, follows x xi (after_lines cfg' replay j) tt /\ (wfw xi /\ clean (w_st xi)) /\ after_polls m (@a_next_line C U (K * list call)) xi = (inr q0, y) /\ poll_async q0 y = (inr q, x').
Proof.
  induction fuel as [|fuel IH]; intros n x p1 xl r x' E P Hq Hw Hc.
  { cbn [a_loop] in E. destruct n as [|n]; [injection E as <- <-|]; discriminate. }
  cbn [a_loop] in E. destruct (last_bind _ _ _ _ _ _ _ _ good_next_line E P) as [(q0 & q & H1 & H2)|(a & k & m & x1 & p2 & y & H1 & H2 & H3 & H4)].
  - exists 0, x, n, xl, q0, q. split; [apply follows_refl|]. split; [now split|now split].
  - destruct a as [l|].
    + destruct (last_bind _ _ _ _ _ _ _ _ (good_busy _ (busy_line l)) H2 H3) as [(q0 & q & Q1 & Q2)|(a & k2 & m2 & x2 & p3 & y2 & Q1 & Q2 & Q3 & Q4)].
      * exfalso. destruct (busy_poll q0 (busy_polls _ _ (busy_line l) _ _ _ Q1) _ _ _ Q2) as [_ N]. apply N. exact (quiet_back _ _ _ H4 Hq).
      * destruct (IH _ _ _ _ _ _ Q2 Q3 (quiet_back _ _ _ Q4 (quiet_back _ _ _ H4 Hq)) (wf_polls _ _ (proj2 (proj2 (wf_parts cf_welcome_banner l))) _ _ _ Q1 (wf_polls _ _ (proj1 (proj2 (wf_parts cf_welcome_banner l))) _ _ _ H1 Hw))
          (fl_polls_done _ _ _ (fl_line _ _ _ l (fl_any_user ac)) _ _ _ (fun _ => fl_polls_done _ _ _ fl_next_line _ _ _ (fun _ => Hc) H1) Q1)) as (j & xi & m3 & y3 & q0 & q & F & W). exists (S j), xi, m3, y3, q0, q. split; [|exact W].
        destruct a. pose proof (follows_R _ _ _ _ _ _ (R_next_line ac allowed) H1) as F1. pose proof (follows_R _ _ _ _ _ _ (R_line l) Q1) as F2.
        pose proof (follows_trans _ _ _ _ _ (fun _ => after_lines cfg' replay j) _ F2 F) as F3.
        pose (G := fun (r : option bytes) => match r with
          | Some l => fun s => andthen (handle_line cfg' replay l s) (fun _ s => after_lines cfg' replay j s)
          | None => fun s => (Panic, s) end).
        pose proof (follows_trans _ _ _ _ _ G _ F1 F3) as F4. refine (follows_eq _ _ _ _ _ _ F4). intros s. cbn [after_lines]. unfold line_of.
        destruct (next_crlf_line (st_reader s)) as [[l0| | |] p0]; reflexivity.
    + destruct m as [|m]; [injection H2 as <- <-|]; discriminate.
Qed.
(** The greeting and then lines. *)
Lemma interact_waits evs k0 c u n p xl p' x' :
  after_polls n (interact_any ac out) (world_new (src_of evs) (k0, []) c u []) = (inr p, xl) -> poll_async p xl = (inr p', x') -> quiet xl x' ->
  exists j ua s, waits_after cfg' replay j (src_of evs) (final_answers (calls x')) (c, ua) u s
  /\ are_answers_of ac c u (inr p') x' (map (@proj1_sig _ _) ua)
  /\ st_trace s = trace_of x' /\ st_cfg s = (st_cfg (w_st x'), []) /\ st_user s = st_user (w_st x') /\ st_mail s = st_mail (w_st x') /\ st_with s = st_with (w_st x')
  /\ clean (w_st x') /\ src_ended (pr_stream (st_reader s)) = false
  /\ exists T, src_events (pr_stream (st_reader s)) = T ++ events_of x' /\ find_sub CRLF (front (st_reader s) ++ ev_text T) = None.
Proof.
  intros E P Hq. set (x0 := world_new (src_of evs) (k0, []) c u []) in *. assert (W0 : wfw x0) by (unfold wfw, wf; cbn; discriminate). assert (C0 : clean (w_st x0)) by now split.
  unfold interact_any, interact_with in E.
  destruct (last_bind _ _ _ _ _ _ _ _ (good_busy _ (busy_say (cf_welcome_banner (ac_replies ac)))) E P) as [(q0 & q & H1 & H2)|([] & k & m & x1 & p2 & y & H1 & H2 & H3 & H4)].
  { exfalso. destruct (busy_poll q0 (busy_polls _ _ (busy_say _) _ _ _ H1) _ _ _ H2) as [_ N]. exact (N Hq). }
  pose proof (wf_polls _ _ (proj1 (wf_parts cf_welcome_banner [])) _ _ _ H1 W0) as W1.
  pose proof (fl_polls_done _ _ _ (fl_say _ _) _ _ _ (fun _ => C0) H1) as C1.
  destruct (last_bind _ _ _ _ _ _ _ _ (good_busy _ (busy_read (fun s : state => S (prep_size (st_reader s))))) H2 H3) as [(q0 & q & Q1 & Q2)|(fuel & k2 & m2 & x2 & p3 & y2 & Q1 & Q2 & Q3 & Q4)].
  { exfalso. destruct (busy_poll q0 (busy_polls _ _ (busy_read _) _ _ _ Q1) _ _ _ Q2) as [_ N]. exact (N (quiet_back _ _ _ H4 Hq)). }
  assert (x2 = x1) as -> by (destruct k2 as [|k2]; [discriminate|]; cbn in Q1; destruct x1 as [s1 sc1]; cbn in Q1; now injection Q1).
  destruct (loop_waits _ _ _ _ _ _ _ Q2 Q3 (quiet_back _ _ _ Q4 (quiet_back _ _ _ H4 Hq)) W1 C1) as (j & xi & m3 & y3 & q0 & q & F & [Wi Ci] & L1 & L2).
  pose proof (follows_R _ _ _ _ _ _ (R_say ac ks allowed (cf_welcome_banner (ac_replies ac)) (cf_welcome_banner cfg') (fun c => eq_refl)) H1) as F0.
  pose proof (follows_trans _ _ _ _ _ (fun _ => after_lines cfg' replay j) _ F0 F) as (ua & rec & t & [S1 S2 S3] & T1 & A1).
  destruct (line_waits _ _ _ _ _ _ L1 L2) as ((buf & B0 & T & B1 & B2 & B3 & B4) & B5 & B6).
  exists j, ua, (enc (w_st xi) [] []). cbn in S1, S2.
  assert (Ec : calls x' = rec) by (rewrite B1; unfold calls; cbn; exact S1).
  assert (Et : trace_of x' = t) by (rewrite B1; unfold trace_of; cbn; exact S2).
  split; [|split; [|split; [|split; [|split; [|split; [|split; [|split; [|split]]]]]]]].
  - unfold waits_after. rewrite Ec. specialize (A1 [] []). rewrite !app_nil_r in A1. exact A1.
  - destruct T1 as (over & c1 & u1 & T1 & -> & _). exists false, c1, u1. rewrite Et. now split.
  - rewrite B1. reflexivity.
  - rewrite B1. reflexivity.
  - rewrite B1. reflexivity.
  - rewrite B1. reflexivity.
  - rewrite B1. reflexivity.
  - rewrite B1. exact Ci.
  - cbn. rewrite <- B4. apply B6. exact (wf_polls _ _ (proj1 (proj2 (wf_parts cf_welcome_banner []))) _ _ _ L1 Wi).
  - exists T. split; [exact B2|]. cbn. rewrite <- B3, B5, app_nil_r. exact B0.
Qed.
End Idle.
