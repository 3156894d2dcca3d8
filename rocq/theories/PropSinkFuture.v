(** Property C66: sending a message under every schedule, and sends that are dropped. *)
From Verif Require Import Bytes Stream SpecData DataProofs SinkProofs PropData SinkFuture.

Section Replay.
Context {K : Type}.
Variable ks : ksink K.
Notation wire := (wire K).

(** The task run to its end against an oracle, as in Stream.v. *)
Fixpoint run_task (ok : sink_oracle) (t : stask) (sent : list bytes) : list bytes * sink_result * sink_state :=
  match t with
  | TDone st => (sent, SkOk, st)
  | TFuel => (sent, SkFuel, SkRunning)
  | TPut st None k => run_task ok k sent
  | TPut st (Some b) k =>
      match sink_put ok sent b with
      | (sent, true) => run_task ok k sent
      | (sent, false) => (sent, SkErr, st)
      end
  end.
Lemma sink_put_grows ok sent b : exists more, fst (sink_put ok sent b) = sent ++ more.
Proof. unfold sink_put. destruct (ok sent b); cbn; [now exists [b]|exists []; now rewrite app_nil_r|now exists [b]]. Qed.
Lemma run_task_ext t : forall ok ok' sent, (forall more b, ok (sent ++ more) b = ok' (sent ++ more) b) ->
  run_task ok t sent = run_task ok' t sent.
Proof.
  induction t as [st|st [b|] k IH|]; intros ok ok' sent H; cbn [run_task]; try reflexivity; [|now apply IH].
  assert (E : sink_put ok sent b = sink_put ok' sent b).
  { unfold sink_put. specialize (H [] b). rewrite app_nil_r in H. now rewrite H. }
  rewrite E. pose proof (sink_put_grows ok' sent b) as [more Hm]. destruct (sink_put ok' sent b) as [sent' [|]]; [|reflexivity].
  cbn in Hm. subst sent'. apply IH. intros more' b'. rewrite <- app_assoc. apply H.
Qed.

Definition leaves (r : (sink_result * sink_state + stask) * wire) : list bytes * sink_result * sink_state :=
  match r with
  | (inl (o, st), x) => (wi_taken x, o, st)
  | (inr t, x) => (wi_taken x, SkErr, left_state t)
  end.
Definition explained (t : stask) (sent : list bytes) (r : list bytes * sink_result * sink_state) : Prop :=
  match t with
  | TPut st None k => (exists ok, run_task ok k sent = r) \/ r = (sent, SkErr, st)
  | _ => exists ok, run_task ok t sent = r
  end.
(** An oracle for one more put before the others. *)
Lemma explain_put (sent : list bytes) (b : bytes) (a : put_answer) (ok : sink_oracle) k :
  exists ok', ok' sent b = a /\ run_task ok' k (sent ++ [b]) = run_task ok k (sent ++ [b]).
Proof.
  exists (fun s x => if length s =? length sent then a else ok s x). split; [now rewrite Nat.eqb_refl|].
  apply run_task_ext. intros more x. rewrite !app_length. cbn [length].
  destruct (Nat.eqb_spec (length sent + 1 + length more) (length sent)); [lia|reflexivity].
Qed.
(** What a flush that is waited for comes to. *)
Lemma explained_flush st k sent r : (exists ok, run_task ok k sent = r) \/ r = (sent, SkErr, st) -> forall b s, sent = s ++ [b] ->
  exists ok, run_task ok (TPut st (Some b) k) s = r.
Proof.
  intros H b s ->. destruct H as [[ok H]|H].
  - destruct (explain_put s b PutOk ok k) as (ok' & E1 & E2). exists ok'. cbn [run_task]. unfold sink_put. rewrite E1. now rewrite E2.
  - exists (fun _ _ => PutTaken). subst r. reflexivity.
Qed.
Fixpoint fresh (t : stask) : Prop :=
  match t with TDone _ | TFuel => True | TPut _ (Some _) k => fresh k | TPut _ None _ => False end.
Definition waiting (t : stask) : Prop := match t with TPut _ _ k => fresh k | _ => True end.
Lemma fresh_waiting t : fresh t -> waiting t.
Proof. destruct t as [|st [b|] k|]; cbn; tauto. Qed.
Lemma explained_fresh t sent r : fresh t -> explained t sent r -> exists ok, run_task ok t sent = r.
Proof. destruct t as [|st [b|] k|]; cbn [fresh explained]; tauto. Qed.
Lemma poll_explained t : waiting t -> forall x,
  match poll_task ks t x with
  | (inl r, x') => explained t (wi_taken x) (leaves (inl r, x'))
  | (inr t', x') => waiting t' /\ (forall r, explained t' (wi_taken x') r -> explained t (wi_taken x) r)
                    /\ explained t (wi_taken x) (leaves (inr t', x'))
  end.
Proof.
  induction t as [st|st cur k IH|]; intros Hw x; cbn [poll_task]; [now exists (fun _ _ => PutOk)| |now exists (fun _ _ => PutOk)].
  cbn [waiting] in Hw. specialize (IH (fresh_waiting _ Hw)).
  assert (F : forall kk taken, match (let '(r, kk') := k_flush ks kk in (r, @None bytes, Wire kk' taken)) with
     | (Pending, cur', x') => cur' = None /\ wi_taken x' = taken
     | (Ready true, _, x') => match poll_task ks k x' with
          | (inl r, x2) => explained (TPut st None k) taken (leaves (inl r, x2))
          | (inr t', x2) => waiting t' /\ (forall r, explained t' (wi_taken x2) r -> explained (TPut st None k) taken r)
              /\ explained (TPut st None k) taken (leaves (inr t', x2))
          end
     | (Ready false, _, x') => explained (TPut st None k) taken (leaves (inl (SkErr, st), x'))
     end).
  { intros kk taken. destruct (k_flush ks kk) as [[|[|]] kk']; [now split| |cbn; now right].
    specialize (IH (Wire kk' taken)). cbn [wi_taken] in IH. destruct (poll_task ks k (Wire kk' taken)) as [[r|t'] x2].
    - left. now apply explained_fresh.
    - destruct IH as (W & IH1 & IH2). split; [exact W|]. split; [intros r H; left; apply explained_fresh; auto|left; now apply explained_fresh]. }
  destruct cur as [b|]; cbn [poll_put].
  - destruct (k_ready ks (wi_sink x)) as [[|[|]] kk].
    + split; [exact Hw|]. split; [exact (fun r H => H)|]. exists (fun _ _ => PutRefused). reflexivity.
    + destruct (k_start ks kk b) as [[| |] kk1].
      * specialize (F kk1 (wi_taken x ++ [b])).
        assert (X : forall r, explained (TPut st None k) (wi_taken x ++ [b]) r -> explained (TPut st (Some b) k) (wi_taken x) r).
        { intros r H. exact (explained_flush st k _ r H b _ eq_refl). }
        destruct (let '(r, kk') := k_flush ks kk1 in (r, @None bytes, Wire kk' (wi_taken x ++ [b]))) as [[[|[|]] cur'] x1].
        -- destruct F as [-> F]. split; [exact Hw|]. rewrite F. split; [exact X|]. apply X. right. cbn. now rewrite F.
        -- destruct (poll_task ks k x1) as [[r|t'] x2]; [now apply X|]. destruct F as (W & F1 & F2). repeat split; auto.
        -- now apply X.
      * exists (fun _ _ => PutRefused). reflexivity.
      * exists (fun _ _ => PutTaken). reflexivity.
    + exists (fun _ _ => PutRefused). reflexivity.
  - specialize (F (wi_sink x) (wi_taken x)).
    destruct (let '(r, kk') := k_flush ks (wi_sink x) in (r, @None bytes, Wire kk' (wi_taken x))) as [[[|[|]] cur'] x1].
    + destruct F as [-> F]. split; [exact Hw|]. rewrite F. split; [exact (fun r H => H)|]. right. cbn. now rewrite F.
    + destruct (poll_task ks k x1) as [[r|t'] x2]; exact F.
    + exact F.
Qed.
Lemma polls_explained n : forall t x, waiting t -> explained t (wi_taken x) (leaves (poll_times ks (S n) t x)).
Proof.
  induction n as [|n IH]; intros t x Hw; cbn [poll_times]; pose proof (poll_explained t Hw x) as H;
    destruct (poll_task ks t x) as [[r|t'] x']; try exact H; [apply H|]. destruct H as (W & H1 & _). apply H1. exact (IH t' x' W).
Qed.

(** The tasks of [DataSink]. *)
Lemma fresh_send fuel : forall st item k, (forall st, fresh (k st)) -> fresh (t_send fuel st item k).
Proof.
  induction fuel as [|fuel IH]; intros st item k H; cbn [t_send]; [exact I|]. destruct (sink_scan st 0 item) as [st' [pos|]]; cbn; auto.
Qed.
Lemma fresh_send_all ms : forall st k, (forall st, fresh (k st)) -> fresh (t_send_all st ms k).
Proof. induction ms as [|m ms IH]; intros st k H; cbn [t_send_all]; [apply H|]. apply fresh_send. auto. Qed.
Lemma run_send ok k fuel : forall st item sent, run_task ok (t_send fuel st item k) sent =
  match sink_send_loop fuel ok (Sink sent st) item with
  | (s, SkOk) => run_task ok (k (sk_state s)) (sk_sent s)
  | (s, SkErr) => (sk_sent s, SkErr, sk_state s)
  | (s, SkFuel) => (sk_sent s, SkFuel, SkRunning)
  end.
Proof.
  induction fuel as [|fuel IH]; intros st item sent; cbn [t_send sink_send_loop]; [reflexivity|].
  cbn [sk_state sk_sent]. destruct (sink_scan st 0 item) as [st' [pos|]]; cbn [run_task].
  - destruct (sink_put ok sent (firstn (pos + 1) item)) as [sent' [|]]; [apply IH|reflexivity].
  - destruct (sink_put ok sent item) as [sent' [|]]; reflexivity.
Qed.
Lemma run_send_all ok k ms : forall st sent, run_task ok (t_send_all st ms k) sent =
  match sink_send_all ok (Sink sent st) ms with
  | (s, SkOk) => run_task ok (k (sk_state s)) (sk_sent s)
  | (s, SkErr) => (sk_sent s, SkErr, sk_state s)
  | (s, SkFuel) => (sk_sent s, SkFuel, SkRunning)
  end.
Proof.
  induction ms as [|m ms IH]; intros st sent; cbn [t_send_all sink_send_all]; [reflexivity|].
  rewrite run_send. unfold sink_send. destruct (sink_send_loop _ _ _ _) as [s [| |]]; try reflexivity. destruct s as [sent' st']. apply IH.
Qed.
End Replay.

(** ** C66 *)
(** Sending a message, polled any number of times against any sink: it has done
    what the uninterrupted code does for some answers of the sink.  Being dropped
    is, for what was sent and for the state left, an error of the sink. *)
Theorem C66_sends_under_every_schedule : forall K (ks : ksink K) k0 ms n,
  exists ok s r, sink_send_all ok sink_new ms = (s, r) /\ r <> SkFuel
  /\ match poll_times ks (S n) (t_send_all SkCrLfPassed ms TDone) (Wire k0 []) with
     | (inl (r', st), x) => r' = r /\ st = sk_state s /\ wi_taken x = sk_sent s
     | (inr t, x) => r = SkErr /\ left_state t = sk_state s /\ wi_taken x = sk_sent s
     end.
Proof.
  intros K ks k0 ms n.
  assert (Hf : fresh (t_send_all SkCrLfPassed ms TDone)) by (apply fresh_send_all; exact (fun _ => I)).
  destruct (explained_fresh _ _ _ Hf (polls_explained ks n _ (Wire k0 []) (fresh_waiting _ Hf))) as [ok H].
  rewrite run_send_all in H. exists ok. change (Sink (wi_taken (Wire k0 [])) SkCrLfPassed) with sink_new in H.
  pose proof (proj1 (C06_sink_total ok ms)) as T.
  destruct (sink_send_all ok sink_new ms) as [s r] eqn:E. exists s, r. split; [reflexivity|]. split; [exact T|].
  cbn [snd] in T. destruct (poll_times ks (S n) _ _) as [[[r' st]|t] x]; destruct r; cbn [run_task leaves] in H; try congruence;
    inversion H; now repeat split.
Qed.
Print Assumptions C66_sends_under_every_schedule.
(** The same with [end]: what the sink has taken, whenever the task is looked at or
    dropped and whatever the sink answered, is a beginning of the encoding of the
    message, and all of it if the task returned [Ok]. *)
Theorem C66_message_under_every_schedule : forall K (ks : ksink K) k0 ms n,
  exists rest, message_encoding (concat ms)
     (concat (wi_taken (snd (poll_times ks n (t_send_all SkCrLfPassed ms t_end) (Wire k0 [])))) ++ rest)
  /\ (forall st x, poll_times ks n (t_send_all SkCrLfPassed ms t_end) (Wire k0 []) = (inl (SkOk, st), x) -> rest = []).
Proof.
  intros K ks k0 ms n. pose proof (enc_message (concat ms)) as Full.
  destruct n as [|n]; [eexists; split; [exact Full|discriminate]|].
  assert (Hf : fresh (t_send_all SkCrLfPassed ms t_end)) by (apply fresh_send_all; exact (fun _ => I)).
  destruct (explained_fresh _ _ _ Hf (polls_explained ks n _ (Wire k0 []) (fresh_waiting _ Hf))) as [ok H].
  rewrite run_send_all in H. change (Sink (wi_taken (Wire k0 [])) SkCrLfPassed) with sink_new in H.
  remember (poll_times ks (S n) (t_send_all SkCrLfPassed ms t_end) (Wire k0 [])) as R eqn:ER. clear ER.
  pose proof (sink_send_all_ok ok ms sink_new) as P. unfold send_post in P. cbn [sk_state sk_sent sink_new concat app] in P.
  destruct (sink_send_all ok sink_new ms) as [s r] eqn:E.
  assert (Hr : fst (fst (leaves R)) = wi_taken (snd R)) by now destruct R as [[[o st]|t] x].
  assert (Ho : forall st x, R = (inl (SkOk, st), x) -> snd (fst (leaves R)) = SkOk) by now intros st x ->.
  rewrite <- Hr. rewrite <- H in *. clear H Hr. destruct r; [| |destruct P].
  - (* all sent; the end *)
    destruct P as [P1 P2]. rewrite <- P1, <- P2 in Full. cbn [t_end run_task] in *.
    replace (match sk_state s with SkRunning => CRLF ++ [DOT] ++ CRLF | SkCrPassed => CRLF ++ [DOT] ++ CRLF | SkCrLfPassed => [DOT] ++ CRLF end)
      with (fin (sk_state s)) in * by now destruct (sk_state s).
    unfold sink_put in *. destruct (ok (sk_sent s) (fin (sk_state s))); cbn [fst snd] in *.
    + exists []. rewrite app_nil_r, concat_app. cbn [concat]. rewrite app_nil_r. now split.
    + exists (fin (sk_state s)). split; [exact Full|]. intros st x ER. now specialize (Ho st x ER).
    + exists []. rewrite app_nil_r, concat_app. cbn [concat]. rewrite app_nil_r. now split.
  - destruct P as (w & Hw & y & Hy). cbn [fst snd] in *. rewrite Hw. exists (y ++ fin (snd (enc SkCrLfPassed (concat ms)))).
    rewrite app_assoc, <- Hy. split; [exact Full|]. intros st x ER. now specialize (Ho st x ER).
Qed.
Print Assumptions C66_message_under_every_schedule.
(** Sends that were dropped, failed or are not over never look like a whole message:
    the receiver of any beginning of what was taken finds it interrupted, and what
    it has got is a beginning of the message. *)
Theorem C66_no_early_end : forall K (ks : ksink K) k0 ms n p lost items c d',
  concat (wi_taken (snd (poll_times ks n (t_send_all SkCrLfPassed ms TDone) (Wire k0 [])))) = unread p ++ lost ->
  ds_session (ds_new p) = (Some items, c, d') ->
  c = CompleteErr /\ exists more, concat ms = concat items ++ more.
Proof.
  intros K ks k0 ms n p lost items c d' Hp Es. destruct n as [|n].
  - cbn [poll_times snd wi_taken] in Hp.
    destruct (C08_no_early_end (fun _ _ => PutOk) [] sink_new SkOk p lost items c d' eq_refl Hp Es) as [-> [more H]].
    split; [reflexivity|]. symmetry in H. apply app_eq_nil in H as [-> ->]. now exists (concat ms).
  - destruct (C66_sends_under_every_schedule K ks k0 ms n) as (ok & s & r & E & _ & H).
    assert (Hs : wi_taken (snd (poll_times ks (S n) (t_send_all SkCrLfPassed ms TDone) (Wire k0 []))) = sk_sent s)
      by (destruct (poll_times ks (S n) _ _) as [[[r' st]|t] x]; apply H).
    rewrite Hs in Hp. exact (C08_no_early_end ok ms s r p lost items c d' E Hp Es).
Qed.
Print Assumptions C66_no_early_end.

(** A sink that takes every item at once, and finishes the flush at the second poll. *)
Definition slow_flush : ksink bool :=
  KSink (fun k => (Ready true, k)) (fun _ _ => (PutOk, false)) (fun k => (if k then Ready true else Pending, true)).
(** The hypotheses are met: three polls of the two pieces, then dropped. *)
Example C66_dropped_case :
  let '(r, x) := poll_times slow_flush 3 (t_send_all SkCrLfPassed [[DOT; 97%N; CR]; [LF; DOT]] TDone) (Wire true []) in
  wi_taken x = [[DOT]; [DOT; 97%N; CR]; [LF; DOT]] /\ match r with inr t => left_state t = SkRunning | inl _ => False end.
Proof. vm_compute. now split. Qed.
Example C66_whole_case :
  let '(r, x) := poll_times slow_flush 6 (t_send_all SkCrLfPassed [[DOT; 97%N; CR]; [LF; DOT]] t_end) (Wire true []) in
  wi_taken x = [[DOT]; [DOT; 97%N; CR]; [LF; DOT]; [DOT]; [CR; LF; DOT; CR; LF]] /\ match r with inl r => fst r = SkOk | inr _ => False end.
Proof. vm_compute. now split. Qed.

(** A finding: a [DataSink] must not be used after one of its sends was dropped.
    [send(".x\r\n")] was polled once, when the sink took the byte [.], and dropped;
    [end] then succeeds, and the receiver finds an empty message that is complete,
    followed by [.\r\n], which it will read as a command. *)
Theorem C66_end_after_dropped_send_refuted :
  exists t x st x' items d' later p',
    poll_times slow_flush 1 (t_send_all SkCrLfPassed [[DOT; 120%N; CR; LF]] TDone) (Wire true []) = (inr t, x)
    /\ poll_times slow_flush 2 (t_end (left_state t)) x = (inl (SkOk, st), x')
    /\ ds_session (ds_new (prep_new (src_of [Chunk (concat (wi_taken x'))]))) = (Some items, CompleteOk, d')
    /\ concat items = []
    /\ prep_read_all (ds_source d') = (Some later, p') /\ concat later = [DOT; CR; LF].
Proof. do 8 eexists. repeat split; vm_compute; reflexivity. Qed.
Print Assumptions C66_end_after_dropped_send_refuted.
