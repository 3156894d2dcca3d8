(** Any user code: a session that is pending waits for the sink, or has nothing to
    flush. *)
From Verif Require Import Bytes Nom SmtpString Ip Message Reply Stream Interact SinkFuture Async AsyncUser SpecPrompt SpecAsync SpecUser AsyncContract PropAsyncSink.

Section Flush.
Context {C U K : Type}.
Variable cfg : config C U.
Variable ks : @ksink K.
Notation state := (@st C U (K * list call)).
Notation world := (@world C U (K * list call)).
Notation async := (@async C U (K * list call)).
Notation out := (any_sink (recording ks)).

Definition clean (s : state) : Prop := st_with s = None /\ dirty (snd (st_w s)) = false.
Definition ends (P Q : bool) {B} (r : poll (outcome B)) (s : state) : Prop :=
  match r with
  | Pending => if P then clean s else waiting_for_sink (snd (st_w s))
  | Ready (Ret _) => Q = true -> clean s
  | Ready _ => True
  end.
Inductive fl {A} (Q : bool) : bool -> async A -> Prop :=
| fl_ret P a : P = true \/ Q = false -> fl Q P (ADone (Ret a))
| fl_fail P o : match o with Ret _ => False | _ => True end -> fl Q P (ADone o)
| fl_await P R L B (op : L -> world -> poll (outcome B) * L * world) l k :
    (forall l x r l' x', (P = true -> clean (w_st x)) -> op l x = (r, l', x') -> ends P R r (w_st x')) ->
    (forall b, fl Q R (k b)) -> fl Q P (AAwait op l k)
| fl_weak P p : fl Q false p -> fl Q P p.
Lemma fl_bind {A B} (Q R P : bool) (p : async A) (f : A -> async B) :
  fl R P p -> (forall a, fl Q R (f a)) -> fl Q P (abind p f).
Proof.
  intros H Hf. induction H as [P a Ha|P o Ho|P P' L T op l k Ho Hk IH|P p Hp IH].
  - cbn. destruct Ha as [-> | ->].
    + destruct R; [apply Hf|apply fl_weak, Hf].
    + apply fl_weak, Hf.
  - destruct o; cbn; try contradiction; now apply fl_fail.
  - cbn. eapply fl_await; [exact Ho|]. exact IH.
  - apply fl_weak, IH.
Qed.
Lemma fl_poll {A} Q P (p : async A) : fl Q P p -> forall x p' x', (P = true -> clean (w_st x)) -> poll_async p x = (inr p', x') ->
  exists P', fl Q P' p' /\ (P' = true -> clean (w_st x')) /\ (clean (w_st x') \/ waiting_for_sink (calls x')).
Proof.
  induction 1 as [P a Ha|P o Ho|P P' L B op l k Ho Hk IH|P p Hp IH]; intros x p' x' Gx E.
  - discriminate.
  - discriminate.
  - cbn in E. destruct (op l x) as [[q l'] x1] eqn:Eo. pose proof (Ho _ _ _ _ _ Gx Eo) as Hq.
    destruct q as [|[b| | |]]; cbn in Hq; try discriminate.
    + injection E as <- <-. exists P. split; [now apply (fl_await Q P P')|]. destruct P; [split; auto|]. split; [discriminate|]. now right.
    + exact (IH _ _ _ _ Hq E).
  - apply (IH x); [discriminate|exact E].
Qed.
Lemma fl_polls {A} Q n : forall P (p : async A), fl Q P p -> forall x p' x', (P = true -> clean (w_st x)) -> after_polls n p x = (inr p', x') ->
  n = 0 \/ clean (w_st x') \/ waiting_for_sink (calls x').
Proof.
  induction n as [|n IH]; intros P p Hp x p' x' Gx E; cbn [after_polls] in E; [now left|].
  destruct (poll_async p x) as [[o|q] x1] eqn:E1; [discriminate|]. destruct (fl_poll _ _ _ Hp _ _ _ Gx E1) as (P' & H1 & H2 & H3).
  right. destruct (IH _ _ H1 _ _ _ H2 E) as [-> |H]; [|exact H]. cbn in E. now injection E as <- <-.
Qed.
Lemma fl_done {A} P (p : async A) : fl true P p -> forall x a x', (P = true -> clean (w_st x)) -> poll_async p x = (inl (Ret a), x') -> clean (w_st x').
Proof.
  induction 1 as [P a0 Ha|P o Ho|P P' L B op l k Ho Hk IH|P p Hp IH]; intros x a x' Gx E.
  - cbn in E. injection E as <- <-. destruct Ha as [-> |Ha]; [now apply Gx|discriminate].
  - cbn in E. injection E as -> <-. destruct Ho.
  - cbn in E. destruct (op l x) as [[q l'] x1] eqn:Eo. pose proof (Ho _ _ _ _ _ Gx Eo) as Hq.
    destruct q as [|[b| | |]]; cbn in Hq; try discriminate. exact (IH _ _ _ _ Hq E).
  - apply (IH x a); [discriminate|exact E].
Qed.
Lemma fl_polls_done {A} n : forall P (p : async A), fl true P p -> forall x a x', (P = true -> clean (w_st x)) -> after_polls n p x = (inl (Ret a), x') -> clean (w_st x').
Proof.
  induction n as [|n IH]; intros P p Hp x a x' Gx E; cbn [after_polls] in E; [discriminate|].
  destruct (poll_async p x) as [[o|q] x1] eqn:E1; [injection E as -> <-; exact (fl_done _ _ Hp _ _ _ Gx E1)|].
  destruct (fl_poll _ _ _ Hp _ _ _ Gx E1) as (P' & H1 & H2 & _). exact (IH _ _ H1 _ _ _ H2 E).
Qed.
Lemma fl_sync {B} P (f : state -> outcome B * state) : (forall s, still s (snd (f s))) -> fl P P (sync f).
Proof.
  intros H. apply (fl_await P P P).
  - intros l x r l' x' Gx E. pose proof (H (w_st x)) as H1. destruct (f (w_st x)) as [o s']. injection E as <- <- <-. cbn in *.
    destruct o; try exact I. intros Hp. specialize (Gx Hp). unfold clean in *. destruct H1 as [-> ->]. exact Gx.
  - intros b. apply fl_ret. destruct P; auto.
Qed.
Lemma fl_read {B} P (f : state -> B) : fl P P (read f).
Proof. apply fl_sync. now split. Qed.
(** An operation that leaves the sink alone. *)
Lemma fl_user {L B} (op : L -> world -> poll (outcome B) * L * world) l :
  (forall l x r l' x', op l x = (r, l', x') -> still (w_st x) (w_st x')) -> fl true true (AAwait op l (fun b => ADone (Ret b))).
Proof.
  intros H. apply (fl_await true true true); [|intros b; apply fl_ret; now left].
  intros l0 x r l' x' Gx E. destruct (H _ _ _ _ _ E) as [E1 E2]. specialize (Gx eq_refl). unfold ends, clean in *. rewrite E1, E2. destruct r as [|[]]; auto.
Qed.
Lemma with_poll_fl (s : state) o s' : with_poll (@sender C U _ out) s = (Ret o, s') ->
  st_with s' = None /\ (st_with s = None -> s' = s).
Proof.
  unfold with_poll. destruct (st_with s) as [b|] eqn:Es; [|intros E; injection E as <- <-; auto].
  cbv zeta. destruct (w_send (@sender C U _ out) _ b) as [[|] w]; [|discriminate]. intros E. injection E as <- <-. split; [reflexivity|discriminate].
Qed.
Lemma ends_ready l x r l' x' : op_ready out l x = (r, l', x') -> ends false false r (w_st x').
Proof.
  unfold op_ready. destruct (with_poll (@sender C U _ out) (w_st x)) as [[[]| | |] s]; intros E; try (injection E as <- <- <-; exact I).
  destruct s as [c u m rd [k h] wi tr]. cbn in E. destruct (k_ready ks k) as [[|[|]] k']; cbn in E; injection E as <- <- <-; cbn; try exact I; try discriminate.
  exists h. now left.
Qed.
Lemma ends_flush l x r l' x' : op_flush out l x = (r, l', x') -> ends false true r (w_st x').
Proof.
  unfold op_flush. destruct (with_poll (@sender C U _ out) (w_st x)) as [[[]| | |] s] eqn:P; intros E; try (injection E as <- <- <-; exact I).
  apply with_poll_fl in P. destruct P as [P _].
  destruct s as [c u m rd [k h] wi tr]. cbn in E, P. subst wi. destruct (k_flush ks k) as [[|[|]] k']; cbn in E; injection E as <- <- <-; cbn; try exact I.
  - exists h. now right.
  - intros _. split; [reflexivity|exact (dirty_snoc h (CFlush (Ready true)))].
Qed.
Lemma fl_send_reply r : fl true false (a_send_reply out r).
Proof.
  unfold a_send_reply. destruct (byte_chunks _ _) as [chunks|]; [|now apply fl_fail].
  induction chunks as [|t chunks IH]; cbn [a_send_chunks].
  - apply (fl_await true false true); [intros; eapply ends_flush; eassumption|]. intros b. apply fl_ret. now left.
  - destruct (reply_build _ _ t) as [rl|e]; [|now apply fl_fail]. apply (fl_await true false false); [intros; eapply ends_ready; eassumption|]. intros [].
    apply (fl_bind true false false); [|intros _; exact IH].
    apply (fl_await false false false); [|intros b; apply fl_ret; now right].
    intros l x r' l' x' _ E. destruct (with_start_send (w_st x) rl) as [o s]. injection E as <- <- <-. cbn. destruct o; try exact I. discriminate.
Qed.
Ltac seq := apply (fl_bind true true true).
Lemma fl_say which : fl true true (a_say out which).
Proof. seq; [apply fl_read|]. intros r. apply fl_weak, fl_send_reply. Qed.
Lemma fl_next_line : fl true true (@a_next_line C U (K * list call)).
Proof.
  seq; [apply fl_read|]. intros fuel. generalize (@nil N) as buf.
  assert (Hp : forall b, fl true true (@a_prepend C U (K * list call) b)).
  { intros b. apply fl_sync. intros s. destruct (prep_prepend (st_reader s) b); now split. }
  induction fuel as [|fuel IH]; intros buf; cbn [a_next_line_loop]; [now apply fl_fail|].
  apply (fl_await true true true).
  - intros l x r l' x' Gx E. specialize (Gx eq_refl). unfold op_next in E. destruct (prep_poll (st_reader (w_st x))) as [[|b] p]; injection E as <- <- <-; [exact Gx|]. intros _. exact Gx.
  - intros [pkt|]; cbv zeta.
    + destruct (find_sub CRLF (buf ++ pkt)); [|apply IH]. seq; [apply Hp|]. intros _. apply fl_ret. now left.
    + seq; [apply Hp|]. intros _. apply fl_ret. now left.
Qed.
Lemma fl_set_mail o : fl true true (sync (fun s : state => (Ret tt, set_mail s o))).
Proof. apply fl_sync. now split. Qed.
Record fl_usercode (us : @usercode C U (K * list call)) : Prop := {
  fu_new_mail : fl true true (us_new_mail us);
  fu_filter_from : forall from, fl true true (us_filter_from us from);
  fu_filter_to : forall m to, fl true true (us_filter_to us m to);
  fu_filter_data : forall m, fl true true (us_filter_data us m);
  fu_handle_mail : forall m, fl true true (us_handle_mail us m)
}.
Lemma fl_line us l : fl_usercode us -> fl true true (a_handle_line cfg out us l).
Proof.
  intros H. unfold a_handle_line. destruct (command_parse l) as [c|n| | |]; try apply fl_say; [|now apply fl_fail].
  destruct c; try apply fl_say.
  - seq; [apply fl_read|]. intros [m|]; [|apply fl_say].
    seq; [apply fl_set_mail|]. intros _. destruct (mm_to m).
    + seq; [apply fl_say|]. intros _. apply fl_set_mail.
    + seq; [apply (fu_filter_data us H)|]. intros [[|code msg] m'].
      * seq; [apply fl_say|]. intros _.
        seq; [apply (fu_handle_mail us H)|]. intros [v []]; try (now apply fl_fail). destruct v; [apply fl_say|apply fl_weak, fl_send_reply].
      * seq; [apply fl_weak, fl_send_reply|]. intros _. apply fl_set_mail.
  - seq; [apply fl_read|]. intros [m|]; [apply fl_say|].
    seq; [apply (fu_new_mail us H)|]. intros _. seq; [apply (fu_filter_from us H)|].
    intros [[|code msg] f']; [|apply fl_weak, fl_send_reply]. seq; [apply fl_say|]. intros _. apply fl_set_mail.
  - seq; [apply fl_read|]. intros [m|]; [|apply fl_say].
    seq; [apply (fu_filter_to us H)|].
    intros [[[|code msg] m'] f']; [|apply fl_weak, fl_send_reply]. seq; [apply fl_set_mail|]. intros _. apply fl_say.
Qed.
Lemma fl_future_with us : fl_usercode us -> fl true true (interact_with cfg out us).
Proof.
  intros H. seq; [apply fl_say|]. intros _. seq; [apply fl_read|]. intros fuel.
  induction fuel as [|fuel IH]; cbn [a_loop]; [now apply fl_fail|].
  seq; [apply fl_next_line|]. intros [l|]; [|apply fl_ret; now left]. seq; [now apply fl_line|]. intros _. exact IH.
Qed.
Variable ac : aconfig C U.
Lemma fl_any_user : fl_usercode (any_user ac).
Proof.
  assert (Hf : forall X (f : ufuture (C * U * X) decision) v finish, (forall d v s, still (K := K) s (finish d v s)) -> fl true true (a_filter f v finish)).
  { intros X f v finish Hs. apply fl_user. intros l x r l' x' E. unfold op_filter in E.
    destruct (uf_poll f (fst l) _) as [[[|[d|]] l1] [[c u] v1]]; injection E as <- <- <-; try (now split).
    exact (Hs d v1 (set_cu (w_st x) c u)). }
  split.
  - apply fl_user. intros l x r l' x' E. unfold op_new_mail in E. destruct (uf_poll (ac_new_mail ac) l _) as [[[|[d|]] l1] c]; injection E as <- <- <-; now split.
  - intros from. seq; [apply fl_read|]. intros u0. apply Hf. now split.
  - intros m to. seq; [apply fl_read|]. intros u0. seq; [apply Hf; now split|]. intros [d [m' to']]. apply fl_ret. now left.
  - intros m. seq; [apply fl_read|]. intros u0. apply Hf. now split.
  - intros m. seq; [apply fl_read|]. intros u0. apply fl_user.
    intros [[[[h t] buf] data] cs] x r l' x' E. unfold op_handle in E. cbv zeta in E.
    destruct (run_hpoll _ _ data cs) as [[[[h' c u|v c u| | |] d] data'] cs']; injection E as <- <- <-; now split.
Qed.
End Flush.
