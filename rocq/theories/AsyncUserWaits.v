(** Any user code: why a session is pending, and when it ends. *)
From Verif Require Import Bytes Nom SmtpString Ip Message Reply Stream Interact SinkFuture Async AsyncUser SpecAsync SpecUser SpecUserWaits AsyncWaits AsyncReplay AsyncUserProofs.

(** ** A property of all programs that [interact] is made of *)
Section Walk.
Context {C U W : Type}.
Variable cfg : config C U.
Variable out : @outlet C U W.
Variable us : @usercode C U W.
Notation state := (@st C U W).
Notation async := (@async C U W).
Variable P : forall A, async A -> Prop.
Arguments P {A} _.
Hypothesis Hdone : forall A (o : outcome A), P (ADone o).
Hypothesis Hbind : forall A B (p : async A) (f : A -> async B), P p -> (forall a, P (f a)) -> P (abind p f).
Hypothesis Hread : forall B (f : state -> B), P (read f).
Hypothesis Hmail : forall o, P (sync (fun s : state => (Ret tt, set_mail s o))).
Hypothesis Hprepend : forall b, P (@a_prepend C U W b).
Hypothesis Hstart : forall r, P (sync (fun s : state => with_start_send s r)).
Hypothesis Hnext : P (AAwait (@op_next C U W) tt (fun b => ADone (Ret b))).
Hypothesis Hready : P (AAwait (op_ready out) tt (fun b => ADone (Ret b))).
Hypothesis Hflush : P (AAwait (op_flush out) tt (fun b => ADone (Ret b))).
Hypothesis Hnew_mail : P (us_new_mail us).
Hypothesis Hfilter_from : forall from, P (us_filter_from us from).
Hypothesis Hfilter_to : forall m to, P (us_filter_to us m to).
Hypothesis Hfilter_data : forall m, P (us_filter_data us m).
Hypothesis Hhandle_mail : forall m, P (us_handle_mail us m).
Lemma walk_reply r : P (a_send_reply out r).
Proof.
  unfold a_send_reply. destruct (byte_chunks _ _) as [chunks|]; [|apply Hdone].
  induction chunks as [|t chunks IH]; cbn [a_send_chunks].
  - apply (Hbind _ _ (AAwait (op_flush out) tt (fun b => ADone (Ret b))) (fun _ => ADone (Ret tt))); [exact Hflush|]. intros _. apply Hdone.
  - destruct (reply_build _ _ t) as [rl|e]; [|apply Hdone].
    apply (Hbind _ _ (AAwait (op_ready out) tt (fun b => ADone (Ret b))) (fun _ => abind (sync (fun s => with_start_send s rl)) (fun _ => a_send_chunks out (fst r) chunks))); [exact Hready|].
    intros _. apply Hbind; [apply Hstart|]. intros _. exact IH.
Qed.
Lemma walk_say which : P (a_say out which).
Proof. apply Hbind; [apply Hread|]. intros r. apply walk_reply. Qed.
Lemma walk_line : P (@a_next_line C U W).
Proof.
  apply Hbind; [apply Hread|]. intros fuel. generalize (@nil N) as buf.
  induction fuel as [|fuel IH]; intros buf; cbn [a_next_line_loop]; [apply Hdone|].
  apply (Hbind _ _ (AAwait (@op_next C U W) tt (fun b => ADone (Ret b))) (fun r => match r with
      | Some pkt => let buf := buf ++ pkt in
          match find_sub CRLF buf with
          | Some pos => abind (a_prepend (skipn (pos + 2) buf)) (fun _ => ADone (Ret (Some (firstn (pos + 2) buf))))
          | None => a_next_line_loop fuel buf
          end
      | None => abind (a_prepend buf) (fun _ => ADone (Ret None))
      end)); [exact Hnext|]. intros [pkt|]; cbv zeta.
  - destruct (find_sub CRLF (buf ++ pkt)); [|apply IH]. apply Hbind; [apply Hprepend|]. intros _. apply Hdone.
  - apply Hbind; [apply Hprepend|]. intros _. apply Hdone.
Qed.
Lemma walk_handle_line l : P (a_handle_line cfg out us l).
Proof.
  unfold a_handle_line. destruct (command_parse l) as [c|n| | |]; try apply walk_say; [|apply Hdone].
  destruct c; try apply walk_say.
  - apply Hbind; [apply Hread|]. intros [m|]; [|apply walk_say].
    apply Hbind; [apply Hmail|]. intros _. destruct (mm_to m).
    + apply Hbind; [apply walk_say|]. intros _. apply Hmail.
    + apply Hbind; [apply Hfilter_data|]. intros [[|code msg] m'].
      * apply Hbind; [apply walk_say|]. intros _.
        apply Hbind; [apply Hhandle_mail|]. intros [v []]; try apply Hdone. destruct v; [apply walk_say|apply walk_reply].
      * apply Hbind; [apply walk_reply|]. intros _. apply Hmail.
  - apply Hbind; [apply Hread|]. intros [m|]; [apply walk_say|].
    apply Hbind; [apply Hnew_mail|]. intros _. apply Hbind; [apply Hfilter_from|].
    intros [[|code msg] f']; [|apply walk_reply]. apply Hbind; [apply walk_say|]. intros _. apply Hmail.
  - apply Hbind; [apply Hread|]. intros [m|]; [|apply walk_say].
    apply Hbind; [apply Hfilter_to|].
    intros [[[|code msg] m'] f']; [|apply walk_reply]. apply Hbind; [apply Hmail|]. intros _. apply walk_say.
Qed.
Lemma walk : P (interact_with cfg out us).
Proof.
  apply Hbind; [apply walk_say|]. intros _. apply Hbind; [apply Hread|]. intros fuel.
  induction fuel as [|fuel IH]; cbn [a_loop]; [apply Hdone|].
  apply Hbind; [apply walk_line|]. intros [l|]; [|apply Hdone]. apply Hbind; [apply walk_handle_line|]. intros _. exact IH.
Qed.
End Walk.

(** ** Why a poll answers [Pending] *)
Section Reason.
Context {C U K : Type}.
Variable ac : aconfig C U.
Variable ks : @ksink K.
Variable waits : C -> nat.
Hypothesis Hac : counts_waits waits ac.
Notation state := (@st C U (K * list call)).
Notation world := (@world C U (K * list call)).
Notation async := (@async C U (K * list call)).
Notation out := (any_sink (C := C) (U := U) (recording ks)).
Notation count x := (waits (st_cfg (w_st x))).
Definition since (x x' : world) (evs : list event) (rec : list call) : Prop := events_of x = evs ++ events_of x' /\ calls x' = calls x ++ rec.
Definition reason (pend : bool) (x x' : world) (evs : list event) (rec : list call) : Prop :=
  if pend then (count x' = 1 + count x /\ not_ready rec = 0)
    \/ (count x' = count x /\ exists before, not_ready before = 0 /\ (rec = before ++ [CReady Pending] \/ rec = before ++ [CFlush Pending]))
    \/ (count x' = count x /\ not_ready rec = 0 /\ exists before, evs = before ++ [Pend])
  else count x' = count x /\ not_ready rec = 0.
Definition goodop {L B} (op : L -> world -> poll (outcome B) * L * world) : Prop := forall l x r l' x', op l x = (r, l', x') ->
  exists evs rec, since x x' evs rec /\ (r = Ready Panic \/ reason (match r with Pending => true | _ => false end) x x' evs rec).
Inductive good {A} : async A -> Prop :=
| gd_done o : good (ADone o)
| gd_await L B (op : L -> world -> poll (outcome B) * L * world) l k : goodop op -> (forall b, good (k b)) -> good (AAwait op l k).
Lemma good_bind {A B} (p : async A) (f : A -> async B) : good p -> (forall a, good (f a)) -> good (abind p f).
Proof. intros H Hf. induction H as [[a| | |]|L T op l k Ho Hk IH]; cbn; try constructor; auto. Qed.
Lemma good_op {L B} (op : L -> world -> poll (outcome B) * L * world) l : goodop op -> good (AAwait op l (fun b => ADone (Ret b))).
Proof. intros H. constructor; [exact H|]. intros b. constructor. Qed.
Lemma since_refl x : since x x [] [].
Proof. split; [reflexivity|]. symmetry. apply app_nil_r. Qed.
Lemma good_sync {B} (f : state -> outcome B * state) : (forall s, st_cfg (snd (f s)) = st_cfg s /\ st_w (snd (f s)) = st_w s
  /\ src_events (pr_stream (st_reader (snd (f s)))) = src_events (pr_stream (st_reader s))) -> good (sync f).
Proof.
  intros H. apply good_op. intros l x r l' x' E. destruct (H (w_st x)) as (H1 & H2 & H3). destruct (f (w_st x)) as [o s]. injection E as <- <- <-. cbn in *.
  exists [], []. split; [split; [unfold events_of; cbn; now rewrite H3|unfold calls; cbn; now rewrite H2, app_nil_r]|]. right. cbn. rewrite H1. now split.
Qed.
Lemma since_trans x y z e r e' r' : since x y e r -> since y z e' r' -> since x z (e ++ e') (r ++ r').
Proof. intros [A1 A2] [B1 B2]. split; [now rewrite A1, B1, app_assoc|now rewrite B2, A2, app_assoc]. Qed.
Lemma good_poll {A} (p : async A) : good p -> forall x r x', poll_async p x = (r, x') ->
  exists evs rec, since x x' evs rec /\ match r with inl Panic => True | inl _ => reason false x x' evs rec | inr q => good q /\ reason true x x' evs rec end.
Proof.
  induction 1 as [o|L B op l k Ho Hk IH]; intros x r x' E; cbn in E.
  - injection E as <- <-. exists [], []. split; [apply since_refl|]. destruct o; cbn; auto.
  - destruct (op l x) as [[q l'] x1] eqn:Q. destruct (Ho _ _ _ _ _ Q) as (evs & rec & S1 & Hr).
    destruct q as [|[b| | |]].
    + injection E as <- <-. exists evs, rec. split; [exact S1|]. split; [now constructor|]. destruct Hr as [Hr|Hr]; [discriminate|exact Hr].
    + destruct Hr as [Hr|[Hr1 Hr2]]; [discriminate|]. destruct (IH _ _ _ _ E) as (evs2 & rec2 & S2 & H2). exists (evs ++ evs2), (rec ++ rec2).
      split; [eapply since_trans; eassumption|]. destruct r as [[a| | |]|q]; auto; unfold reason in *; rewrite ?not_ready_app, ?Hr2, <- ?Hr1; cbn; auto.
      destruct H2 as [H2 H3]. split; [exact H2|]. destruct H3 as [H3|[(H3 & bf & H4 & H5)|(H3 & H4 & bf & H5)]]; [left; exact H3|right; left|right; right].
      * split; [exact H3|]. exists (rec ++ bf). rewrite not_ready_app, Hr2. split; [exact H4|]. destruct H5 as [-> | ->]; rewrite app_assoc; auto.
      * split; [exact H3|]. split; [exact H4|]. exists (evs ++ bf). now rewrite H5, app_assoc.
    + injection E as <- <-. exists evs, rec. split; [exact S1|]. destruct Hr as [Hr|Hr]; [discriminate|exact Hr].
    + injection E as <- <-. exists evs, rec. now split.
    + injection E as <- <-. exists evs, rec. split; [exact S1|]. destruct Hr as [Hr|Hr]; [discriminate|exact Hr].
Qed.
Lemma good_polls {A} n : forall (p : async A), good p -> forall x q x', after_polls n p x = (inr q, x') -> good q.
Proof.
  induction n as [|n IH]; intros p H x q x' E; cbn in E; [now injection E as <- <-|].
  destruct (poll_async p x) as [[o|p1] x1] eqn:Q; [discriminate|]. destruct (good_poll p H _ _ _ Q) as (evs & rec & _ & H1 & _). eauto.
Qed.
(** The writer *)
Lemma with_poll_quiet (x : world) : let x' := upd x (snd (with_poll (@sender C U _ out) (w_st x))) in
  exists rec, since x x' [] rec /\ count x' = count x /\ not_ready rec = 0.
Proof.
  destruct x as [[c u m rd [k h] [b|] tr] sch]; unfold with_poll, calls, since, events_of; cbn.
  - destruct (k_start ks k b) as [[| |] k'] eqn:E; cbn; (exists [CSend b true] + exists [CSend b false]); now repeat split.
  - exists []. rewrite app_nil_r. now repeat split.
Qed.
Lemma good_ready : goodop (op_ready out).
Proof.
  intros l x r l' x' E. destruct (with_poll_quiet x) as (rec & S1 & S2 & S3). unfold op_ready in E.
  destruct (with_poll (@sender C U _ out) (w_st x)) as [o s]. cbn [snd] in *.
  destruct o as [[]| | |]; [|injection E as <- <- <-; exists [], rec; (split; [exact S1|]); right; now split..].
  destruct s as [c u m rd [k h] wi tr]. cbn in E. destruct (k_ready ks k) as [a k'] eqn:Ek. cbn in E.
  assert (Ex : x' = World (St c u m rd (k', h ++ [CReady a]) wi tr) (w_sched x) /\ r = match a with Pending => Pending | Ready true => Ready (Ret tt) | Ready false => Ready WriteErr end).
  { destruct a as [|[|]]; injection E as <- <- <-; split; reflexivity. }
  destruct Ex as [-> ->]. exists [], (rec ++ [CReady a]). split.
  - destruct S1 as [A1 A2]. split; [exact A1|]. unfold calls in *. cbn in *. now rewrite A2, app_assoc.
  - right. destruct a as [|ok]; cbn in *.
    + right. left. split; [exact S2|]. exists rec. auto.
    + destruct ok; cbn; rewrite not_ready_app, S3; now split.
Qed.
Lemma good_flush : goodop (op_flush out).
Proof.
  intros l x r l' x' E. destruct (with_poll_quiet x) as (rec & S1 & S2 & S3). unfold op_flush in E.
  destruct (with_poll (@sender C U _ out) (w_st x)) as [o s]. cbn [snd] in *.
  destruct o as [[]| | |]; [|injection E as <- <- <-; exists [], rec; (split; [exact S1|]); right; now split..].
  destruct s as [c u m rd [k h] wi tr]. cbn in E. destruct (k_flush ks k) as [a k'] eqn:Ek. cbn in E.
  assert (Ex : x' = World (St c u m rd (k', h ++ [CFlush a]) wi tr) (w_sched x) /\ r = match a with Pending => Pending | Ready true => Ready (Ret tt) | Ready false => Ready WriteErr end).
  { destruct a as [|[|]]; injection E as <- <- <-; split; reflexivity. }
  destruct Ex as [-> ->]. exists [], (rec ++ [CFlush a]). split.
  - destruct S1 as [A1 A2]. split; [exact A1|]. unfold calls in *. cbn in *. now rewrite A2, app_assoc.
  - right. destruct a as [|ok]; cbn in *.
    + right. left. split; [exact S2|]. exists rec. auto.
    + destruct ok; cbn; rewrite not_ready_app, S3; now split.
Qed.
Lemma good_next : goodop (@op_next C U (K * list call)).
Proof.
  intros l x r l' x' E. unfold op_next in E. destruct (prep_poll (st_reader (w_st x))) as [q p] eqn:Q.
  destruct (prep_poll_took _ _ _ Q) as (a & E1 & T).
  assert (Sx : forall y, y = upd x (set_reader (w_st x) p) -> since x y a []).
  { intros y ->. split; [exact E1|]. unfold calls. cbn. now rewrite app_nil_r. }
  destruct q as [|b]; injection E as <- <- <-; exists a, []; (split; [now apply Sx|]); right; [right; right|now split].
  split; [reflexivity|]. split; [reflexivity|]. destruct T as (bf & -> & _). now exists bf.
Qed.
(** User code *)
Lemma good_new_mail : goodop (op_new_mail (W := K * list call) ac).
Proof.
  intros l x r l' x' E. unfold op_new_mail in E. destruct (uf_poll (ac_new_mail ac) l (st_cfg (w_st x))) as [[q l1] c] eqn:Q.
  pose proof (cw_new_mail _ _ Hac _ _ _ _ _ Q) as Hw.
  exists [], []. destruct q as [|[[]|]]; injection E as <- <- <-; (split; [split; [reflexivity|unfold calls; cbn; now rewrite app_nil_r]|]); cbn; auto.
Qed.
Lemma good_filter {X} (f : ufuture (C * U * X) decision) v (finish : decision -> X -> state -> state) :
  counts (fun s => waits (fst (fst s))) f ->
  (forall d v s, st_cfg (finish d v s) = st_cfg s /\ st_w (finish d v s) = st_w s /\ st_reader (finish d v s) = st_reader s) ->
  good (a_filter f v finish).
Proof.
  intros Hf Hs. apply good_op. intros l x r l' x' E. unfold op_filter in E.
  destruct (uf_poll f (fst l) _) as [[q l1] [[c u] v1]] eqn:Q. pose proof (Hf _ _ _ _ _ Q) as Hw. cbn in Hw.
  exists [], []. destruct q as [|[d|]]; injection E as <- <- <-.
  - split; [split; [reflexivity|unfold calls; cbn; now rewrite app_nil_r]|]. cbn. auto.
  - destruct (Hs d v1 (set_cu (w_st x) c u)) as (H1 & H2 & H3). split; [split; [unfold events_of; cbn; now rewrite H3|unfold calls; cbn; rewrite H2; cbn; now rewrite app_nil_r]|].
    right. cbn. rewrite H1. cbn. auto.
  - split; [split; [reflexivity|unfold calls; cbn; now rewrite app_nil_r]|]. now left.
Qed.
Lemma ds_poll_events d r d' : ds_poll d = (r, d') -> exists a, src_events (pr_stream (ds_source d)) = a ++ src_events (pr_stream (ds_source d')).
Proof.
  intros E. unfold ds_poll in E. destruct (ds_st d); try (destruct (ds_poll_loop_took _ _ _ _ E) as (a & H & _); now exists a).
  injection E as <- <-. now exists [].
Qed.
Lemma run_hpoll_counts {L} (h : hpoll L C U) n : forall d data cs e d' data' cs', poll_counts waits n h -> run_hpoll h d data cs = (e, d', data', cs') ->
  (exists a, src_events (pr_stream (ds_source d)) = a ++ src_events (pr_stream (ds_source d')))
  /\ match e with EWait _ c _ => waits c = 1 + n | EReturn _ c _ => waits c = n | _ => True end.
Proof.
  induction h as [k IH|k IH|l c u|v c u|]; intros d data cs e d' data' cs' H E; cbn in H, E.
  - destruct (ds_poll d) as [q d1] eqn:Q. destruct (ds_poll_events _ _ _ Q) as (a & Ea).
    destruct q as [b| |]; [| |injection E as <- <- <- <-; split; [now exists a|exact I]];
    destruct (IH _ _ _ _ _ _ _ _ (H _) E) as ((a' & E') & H'); (split; [exists (a ++ a'); now rewrite Ea, E', app_assoc|exact H']).
  - destruct (ds_complete d) as [q d1] eqn:Q. apply ds_complete_events in Q. rewrite Q.
    destruct q; [apply (IH _ _ _ _ _ _ _ _ (H _) E)..|]. injection E as <- <- <- <-. split; [now exists []|exact I].
  - injection E as <- <- <- <-. split; [now exists []|exact H].
  - injection E as <- <- <- <-. split; [now exists []|exact H].
  - injection E as <- <- <- <-. split; [now exists []|exact I].
Qed.
Lemma good_handle u0 m : goodop (op_handle (W := K * list call) u0 m (ac_handle_mail ac m)).
Proof.
  intros [[[[h t] buf] data] cs] x r l' x' E. unfold op_handle in E. cbv zeta in E.
  destruct (run_hpoll _ _ data cs) as [[[e d] data'] cs'] eqn:Q.
  destruct (run_hpoll_counts _ _ _ _ _ _ _ _ _ (cw_handle_mail _ _ Hac m h _ _ _) Q) as ((a & Ea) & Hw). cbn [ds_source] in Ea.

  exists a, []. destruct e as [h' c u|v c u| | |]; injection E as <- <- <-; (split; [split; [exact Ea|unfold calls; cbn; now rewrite app_nil_r]|]); cbn; auto.
Qed.
Lemma good_interact : good (interact_any ac out).
Proof.
  assert (Hr : forall B (f : state -> B), good (read f)) by (intros B f; apply good_sync; now repeat split).
  apply (walk (ac_replies ac) out (any_user ac) (@good)).
  - intros A o. constructor.
  - intros A B p f. apply good_bind.
  - exact Hr.
  - intros o. apply good_sync. now repeat split.
  - intros b. apply good_sync. intros s. unfold prep_prepend. destruct (pr_prepended (st_reader s)); now repeat split.
  - intros r. apply good_sync. intros s. unfold with_start_send. destruct (_ <? _)%nat; now repeat split.
  - apply good_op, good_next.
  - apply good_op, good_ready.
  - apply good_op, good_flush.
  - apply good_op, good_new_mail.
  - intros from. apply good_bind; [apply Hr|]. intros u0. apply good_filter; [apply (cw_filter_from _ _ Hac)|]. now repeat split.
  - intros m to. apply good_bind; [apply Hr|]. intros u0. apply good_bind; [apply good_filter; [apply (cw_filter_to _ _ Hac)|]; now repeat split|].
    intros [d [m' to']]. constructor.
  - intros m. apply good_bind; [apply Hr|]. intros u0. apply good_filter; [apply (cw_filter_data _ _ Hac)|]. now repeat split.
  - intros m. apply good_bind; [apply Hr|]. intros u0. apply good_op, good_handle.
Qed.
End Reason.

(** ** When it ends *)
Section Ends.
Context {C U K : Type}.
Variable ac : aconfig C U.
Variable ks : @ksink K.
Hypothesis Hks : sink_answers ks.
Hypothesis Hac : user_ends ac.
Notation state := (@st C U (K * list call)).
Notation world := (@world C U (K * list call)).
Notation async := (@async C U (K * list call)).
Notation out := (any_sink (C := C) (U := U) (recording ks)).
Definition over {A} (p : async A) (x : world) : Prop := exists n o x', after_polls n p x = (inl o, x').
Definition always_over {A} (p : async A) : Prop := forall x, over p x.
Lemma over_bind {A B} (p : async A) (f : A -> async B) : always_over p -> (forall a, always_over (f a)) -> always_over (abind p f).
Proof.
  intros Hp Hf x. destruct (Hp x) as (n & o & x' & E). clear Hp. revert p x E. induction n as [|n IH]; intros p x E; [discriminate|].
  cbn [after_polls] in E. destruct (poll_async p x) as [[o1|q] x1] eqn:Q.
  - destruct o1 as [a| | |]; [|exists 1; cbn [after_polls]; rewrite poll_bind, Q; eauto..].
    destruct (Hf a x1) as (m & o2 & x2 & E2). exists m, o2, x2. destruct m as [|m]; [discriminate|]. cbn [after_polls] in *. rewrite poll_bind, Q. exact E2.
  - destruct (IH _ _ E) as (m & o2 & x2 & E2). exists (S m), o2, x2. cbn [after_polls]. rewrite poll_bind, Q. exact E2.
Qed.
(** A poll function that is ready in the end. *)
Inductive comes {L B} (op : L -> world -> poll (outcome B) * L * world) : L -> world -> Prop :=
| comes_now l x o l' x' : op l x = (Ready o, l', x') -> comes op l x
| comes_later l x l' x' : op l x = (Pending, l', x') -> comes op l' x' -> comes op l x.
Lemma over_op {L B} (op : L -> world -> poll (outcome B) * L * world) l : (forall x, comes op l x) -> always_over (AAwait op l (fun b => ADone (Ret b))).
Proof.
  intros H x. specialize (H x). induction H as [l x o l' x' E|l x l' x' E _ IH].
  - exists 1. cbn. rewrite E. destruct o; eauto.
  - destruct IH as (n & o & x2 & E2). exists (S n), o, x2. cbn [after_polls poll_async]. rewrite E. exact E2.
Qed.
Lemma over_sync {B} (f : state -> outcome B * state) : always_over (sync f).
Proof.
  apply (over_op (fun _ x => let '(o, s) := f (w_st x) in (Ready o, tt, upd x s))). intros x. destruct (f (w_st x)) as [o s] eqn:E.
  eapply comes_now. rewrite E. reflexivity.
Qed.
Lemma next_comes l x : comes (@op_next C U (K * list call)) l x.
Proof.
  destruct x as [[c u m [[evs en ov] pp] w wi tr] sch]. revert l en ov pp. induction evs as [|[|b] evs IH]; intros [] en ov [q|].
  1,3,5: eapply comes_now; reflexivity.
  - eapply comes_now; reflexivity.
  - eapply comes_later; [reflexivity|]. apply IH.
  - eapply comes_now; reflexivity.
Qed.
Lemma polled_none (s : state) : st_with s = None -> with_poll (@sender C U _ out) s = (Ret tt, s).
Proof. unfold with_poll. now intros ->. Qed.
Lemma ready_comes l x : comes (op_ready out) l x.
Proof.
  assert (H : forall k, answers (k_ready ks) k -> forall l (x : world), st_with (w_st x) = None -> fst (st_w (w_st x)) = k -> comes (op_ready out) l x).
  { clear l x. induction 1 as [k ok k' E|k k' E _ IH]; intros [] x H1 H2; destruct x as [[c u m rd [k0 h] wi tr] sch]; cbn in H1, H2; subst wi k0.
    - destruct ok; eapply comes_now; unfold op_ready; cbn; rewrite E; reflexivity.
    - eapply comes_later; [unfold op_ready; cbn; rewrite E; reflexivity|]. now apply IH. }
  destruct l, (with_poll (@sender C U _ out) (w_st x)) as [o s] eqn:P.
  destruct o as [[]| | |]; [|eapply comes_now; unfold op_ready; rewrite P; reflexivity..].
  assert (Hn : st_with s = None).
  { unfold with_poll in P. destruct (st_with (w_st x)) as [b|] eqn:W; [|now injection P as <-]. cbv zeta in P.
    destruct (w_send (@sender C U _ out) _ b) as [[|] w]; [now injection P as <-|discriminate]. }
  pose proof (H _ (proj1 (Hks (fst (st_w s)))) tt (upd x s) Hn eq_refl) as Hc.
  assert (Ho : op_ready out tt x = op_ready out tt (upd x s)).
  { unfold op_ready at 2. cbn [w_st upd]. rewrite (polled_none _ Hn). unfold op_ready. rewrite P. reflexivity. }
  inversion Hc as [l0 x0 o l' x' E|l0 x0 l' x' E Hl]; subst; [eapply comes_now|eapply comes_later; [|exact Hl]]; rewrite Ho; exact E.
Qed.
Lemma flush_comes l x : comes (op_flush out) l x.
Proof.
  assert (H : forall k, answers (k_flush ks) k -> forall l (x : world), st_with (w_st x) = None -> fst (st_w (w_st x)) = k -> comes (op_flush out) l x).
  { clear l x. induction 1 as [k ok k' E|k k' E _ IH]; intros [] x H1 H2; destruct x as [[c u m rd [k0 h] wi tr] sch]; cbn in H1, H2; subst wi k0.
    - destruct ok; eapply comes_now; unfold op_flush; cbn; rewrite E; reflexivity.
    - eapply comes_later; [unfold op_flush; cbn; rewrite E; reflexivity|]. now apply IH. }
  destruct l, (with_poll (@sender C U _ out) (w_st x)) as [o s] eqn:P.
  destruct o as [[]| | |]; [|eapply comes_now; unfold op_flush; rewrite P; reflexivity..].
  assert (Hn : st_with s = None).
  { unfold with_poll in P. destruct (st_with (w_st x)) as [b|] eqn:W; [|now injection P as <-]. cbv zeta in P.
    destruct (w_send (@sender C U _ out) _ b) as [[|] w]; [now injection P as <-|discriminate]. }
  pose proof (H _ (proj2 (Hks (fst (st_w s)))) tt (upd x s) Hn eq_refl) as Hc.
  assert (Ho : op_flush out tt x = op_flush out tt (upd x s)).
  { unfold op_flush at 2. cbn [w_st upd]. rewrite (polled_none _ Hn). unfold op_flush. rewrite P. reflexivity. }
  inversion Hc as [l0 x0 o l' x' E|l0 x0 l' x' E Hl]; subst; [eapply comes_now|eapply comes_later; [|exact Hl]]; rewrite Ho; exact E.
Qed.
Lemma new_mail_comes l c r c' : ends_with (ac_new_mail ac) l c r c' -> forall x, st_cfg (w_st x) = c -> comes (op_new_mail (W := K * list call) ac) l x.
Proof.
  induction 1 as [l s r l' s' E|l s l' s' r s'' E _ IH]; intros x Hx.
  - eapply comes_now. unfold op_new_mail. rewrite Hx, E. reflexivity.
  - eapply comes_later; [unfold op_new_mail; rewrite Hx, E; reflexivity|]. apply IH. reflexivity.
Qed.
Lemma filter_comes {X} (f : ufuture (C * U * X) decision) (finish : decision -> X -> state -> state) l s r s' : ends_with f l s r s' ->
  forall x v, s = (st_cfg (w_st x), st_user (w_st x), v) -> comes (op_filter f finish) (l, v) x.
Proof.
  induction 1 as [l s r l' s' E|l s l' s' r s'' E _ IH]; intros x v ->; destruct s' as [[c u] v'].
  - eapply comes_now. unfold op_filter. cbn [fst snd]. rewrite E. reflexivity.
  - eapply comes_later; [unfold op_filter; cbn [fst snd]; rewrite E; reflexivity|]. now apply IH.
Qed.
Lemma over_filter {X} (f : ufuture (C * U * X) decision) v (finish : decision -> X -> state -> state) : future_ends f -> always_over (a_filter f v finish).
Proof.
  intros H. apply over_op. intros x. destruct (H (st_cfg (w_st x), st_user (w_st x), v)) as (r & s' & E). eapply filter_comes; [exact E|reflexivity].
Qed.
Lemma acts_run {L} (h : hpoll L C U) d text cs e d' : acts h d text cs e d' -> forall data cs0,
  run_hpoll h d data cs0 = (match e with Waits l c u => EWait l c u | Returns v c u => EReturn v c u | CompletePanics => ECompletePanic end, d', data ++ text, cs0 ++ cs).
Proof.
  induction 1 as [k d b d1 text cs e d2 E _ IH|k d d1 text cs e d2 E _ IH|k d d1 text cs e d2 E _ IH|k d d1 text cs e d2 E _ IH|k d d1 text cs e d2 E _ IH|k d d1 E|l c u d|v c u d]; intros data cs0; cbn [run_hpoll]; rewrite ?E, ?IH, ?app_nil_r, <- ?app_assoc; reflexivity.
Qed.
Lemma handle_comes u0 m h d c u text cs r : handles (ac_handle_mail ac m) h d c u text cs r ->
  forall x data cs0, d = DS (st_reader (w_st x)) (ds_st d) (ds_buf d) -> c = st_cfg (w_st x) -> u = st_user (w_st x) ->
  comes (op_handle (W := K * list call) u0 m (ac_handle_mail ac m)) (h, ds_st d, ds_buf d, data, cs0) x.
Proof.
  induction 1 as [h d c u text cs v c' u' d' E|h d c u text cs d' E|h d c u text cs h' c' u' d' text' cs' r E _ IH]; intros x data cs0 Hd -> ->.
  - eapply comes_now. unfold op_handle. rewrite <- Hd. cbv zeta. rewrite (acts_run _ _ _ _ _ _ E). reflexivity.
  - eapply comes_now. unfold op_handle. rewrite <- Hd. cbv zeta. rewrite (acts_run _ _ _ _ _ _ E). reflexivity.
  - eapply comes_later; [unfold op_handle; rewrite <- Hd; cbv zeta; rewrite (acts_run _ _ _ _ _ _ E); reflexivity|].
    apply IH; try reflexivity. destruct d'; reflexivity.
Qed.
Lemma over_interact : always_over (interact_any ac out).
Proof.
  apply (walk (ac_replies ac) out (any_user ac) (@always_over)).
  - intros A o x. exists 1, o, x. reflexivity.
  - intros A B p f. apply over_bind.
  - intros B f. apply over_sync.
  - intros o. apply over_sync.
  - intros b. apply over_sync.
  - intros r. apply over_sync.
  - apply over_op. intros x. apply next_comes.
  - apply over_op. intros x. apply ready_comes.
  - apply over_op. intros x. apply flush_comes.
  - apply over_op. intros x. destruct (ue_new_mail _ Hac (st_cfg (w_st x))) as (r & c & E). eapply new_mail_comes; [exact E|reflexivity].
  - intros from. apply over_bind; [apply over_sync|]. intros u0. apply over_filter, Hac.
  - intros m to. apply over_bind; [apply over_sync|]. intros u0. apply over_bind; [apply over_filter, Hac|].
    intros [d [m' to']] x. now exists 1, (Ret (d, m', to')), x.
  - intros m. apply over_bind; [apply over_sync|]. intros u0. apply over_filter, Hac.
  - intros m. apply over_bind; [apply over_sync|]. intros u0. apply over_op. intros x.
    destruct (ue_handle_mail _ Hac m (st_reader (w_st x)) (st_cfg (w_st x)) (st_user (w_st x))) as (text & cs & r & E).
    exact (handle_comes u0 m _ _ _ _ _ _ _ E x [] [] eq_refl eq_refl eq_refl).
Qed.
End Ends.

(** ** Counting changes nothing *)
Section Counting.
Context {C U K : Type}.
Variable ac : aconfig C U.
Variable ks : @ksink K.
Notation W := (K * list call)%type.
Notation C2 := (C * nat)%type.
Definition erase_st (s : @st C2 U W) : @st C U W := St (fst (st_cfg s)) (st_user s) (st_mail s) (st_reader s) (st_w s) (st_with s) (st_trace s).
Definition erase (x : @world C2 U W) : @world C U W := World (erase_st (w_st x)) (w_sched x).
Definition lock2 {L B} (op2 : L -> @world C2 U W -> poll (outcome B) * L * @world C2 U W) (op1 : L -> @world C U W -> poll (outcome B) * L * @world C U W) : Prop :=
  forall l x r l' x', op2 l x = (r, l', x') -> op1 l (erase x) = (r, l', erase x').
Inductive sim2 {A} : @async C2 U W A -> @async C U W A -> Prop :=
| sim2_done o : sim2 (ADone o) (ADone o)
| sim2_await L B (op2 : L -> @world C2 U W -> poll (outcome B) * L * @world C2 U W) op1 l k2 k1 :
    lock2 op2 op1 -> (forall b, sim2 (k2 b) (k1 b)) -> sim2 (AAwait op2 l k2) (AAwait op1 l k1).
Lemma sim2_bind {A B} (p : @async C2 U W A) p' (f : A -> @async C2 U W B) f' : sim2 p p' -> (forall a, sim2 (f a) (f' a)) -> sim2 (abind p f) (abind p' f').
Proof. intros H Hf. induction H as [[a| | |]|L T op2 op1 l k2 k1 Ho Hk IH]; cbn; try constructor; auto. Qed.
Lemma sim2_poll {A} (p : @async C2 U W A) p' : sim2 p p' -> forall x r x', poll_async p x = (r, x') ->
  exists r', poll_async p' (erase x) = (r', erase x') /\ match r, r' with inl o, inl o' => o = o' | inr q, inr q' => sim2 q q' | _, _ => False end.
Proof.
  induction 1 as [o|L B op2 op1 l k2 k1 Ho Hk IH]; intros x r x' E; cbn in E |- *.
  - injection E as <- <-. exists (inl o). now split.
  - destruct (op2 l x) as [[q l'] x1] eqn:Q. rewrite (Ho _ _ _ _ _ Q). destruct q as [|[b| | |]]; try (injection E as <- <-; eexists; split; reflexivity).
    + injection E as <- <-. eexists. split; [reflexivity|]. now constructor.
    + exact (IH _ _ _ _ E).
Qed.
Lemma sim2_polls {A} n : forall (p : @async C2 U W A) p', sim2 p p' -> forall x r x', after_polls n p x = (r, x') ->
  exists r', after_polls n p' (erase x) = (r', erase x') /\ match r, r' with inl o, inl o' => o = o' | inr q, inr q' => sim2 q q' | _, _ => False end.
Proof.
  induction n as [|n IH]; intros p p' H x r x' E; cbn in E |- *.
  - injection E as <- <-. exists (inr p'). now split.
  - destruct (poll_async p x) as [q x1] eqn:Q. destruct (sim2_poll _ _ H _ _ _ Q) as (q' & -> & Hq). destruct q as [o|q], q' as [o'|q']; try contradiction.
    + injection E as <- <-. subst o'. eexists. split; reflexivity.
    + exact (IH _ _ Hq _ _ _ E).
Qed.
Lemma sim2_op {L B} (op2 : L -> @world C2 U W -> poll (outcome B) * L * @world C2 U W) op1 l : lock2 op2 op1 ->
  sim2 (AAwait op2 l (fun b => ADone (Ret b))) (AAwait op1 l (fun b => ADone (Ret b))).
Proof. intros H. constructor; [exact H|]. intros b. constructor. Qed.
Lemma sim2_sync {B} (f : @st C2 U W -> outcome B * @st C2 U W) f' : (forall s, f' (erase_st s) = (fst (f s), erase_st (snd (f s)))) -> sim2 (sync f) (sync f').
Proof.
  intros H. apply (sim2_op (fun _ x => let '(o, s) := f (w_st x) in (Ready o, tt, upd x s)) (fun _ x => let '(o, s) := f' (w_st x) in (Ready o, tt, upd x s))).
  intros l x r l' x' E. cbn. rewrite H. destruct (f (w_st x)) as [o s]. injection E as <- <- <-. reflexivity.
Qed.
Lemma sim2_read {B} (f : @st C2 U W -> B) f' : (forall s, f' (erase_st s) = f s) -> sim2 (read f) (read f').
Proof. intros H. apply sim2_sync. intros s. now rewrite H. Qed.
Notation out2 := (any_sink (C := C2) (U := U) (recording ks)).
Notation out1 := (any_sink (C := C) (U := U) (recording ks)).
Lemma erase_with_poll (s : @st C2 U W) : with_poll (@sender C U W out1) (erase_st s) = (fst (with_poll (@sender C2 U W out2) s), erase_st (snd (with_poll (@sender C2 U W out2) s))).
Proof.
  destruct s as [c u m rd w [b|] tr]; unfold with_poll; cbn; [|reflexivity].
  destruct (k_start ks (fst w) b) as [[| |] k']; reflexivity.
Qed.
Lemma lock2_ready : lock2 (op_ready out2) (op_ready out1).
Proof.
  intros l x r l' x' E. unfold op_ready in E |- *. cbn [w_st erase]. rewrite erase_with_poll. destruct (with_poll (@sender C2 U W out2) (w_st x)) as [o s]. cbn [fst snd].
  destruct o as [[]| | |]; try (injection E as <- <- <-; reflexivity). destruct s as [c u m rd [k h] wi tr]. cbn in *.
  destruct (k_ready ks k) as [[|[|]] k']; injection E as <- <- <-; reflexivity.
Qed.
Lemma lock2_flush : lock2 (op_flush out2) (op_flush out1).
Proof.
  intros l x r l' x' E. unfold op_flush in E |- *. cbn [w_st erase]. rewrite erase_with_poll. destruct (with_poll (@sender C2 U W out2) (w_st x)) as [o s]. cbn [fst snd].
  destruct o as [[]| | |]; try (injection E as <- <- <-; reflexivity). destruct s as [c u m rd [k h] wi tr]. cbn in *.
  destruct (k_flush ks k) as [[|[|]] k']; injection E as <- <- <-; reflexivity.
Qed.
Lemma lock2_next : lock2 (@op_next C2 U W) (@op_next C U W).
Proof.
  intros l x r l' x' E. unfold op_next in E |- *. cbn. destruct (prep_poll (st_reader (w_st x))) as [[|b] p]; injection E as <- <- <-; reflexivity.
Qed.
Lemma sim2_reply r : sim2 (a_send_reply out2 r) (a_send_reply out1 r).
Proof.
  unfold a_send_reply. destruct (byte_chunks _ _) as [chunks|]; [|constructor].
  induction chunks as [|t chunks IH]; cbn [a_send_chunks].
  - constructor; [apply lock2_flush|]. constructor.
  - destruct (reply_build _ _ t) as [rl|e]; [|constructor]. constructor; [apply lock2_ready|]. intros _. apply sim2_bind; [|intros _; exact IH].
    apply sim2_sync. intros s. unfold with_start_send. destruct (_ <? _)%nat; reflexivity.
Qed.
Lemma sim2_say (which : C2 -> N * bytes) (which' : C -> N * bytes) : (forall c, which c = which' (fst c)) -> sim2 (a_say out2 which) (a_say out1 which').
Proof. intros H. apply sim2_bind; [apply sim2_read; intros s; now rewrite H|]. intros r. apply sim2_reply. Qed.
Lemma sim2_next_line : sim2 (@a_next_line C2 U W) (@a_next_line C U W).
Proof.
  apply sim2_bind; [apply sim2_read; reflexivity|]. intros fuel. generalize (@nil N) as buf.
  assert (Hp : forall b, sim2 (@a_prepend C2 U W b) (@a_prepend C U W b)).
  { intros b. apply sim2_sync. intros s. cbn. destruct (prep_prepend (st_reader s) b); reflexivity. }
  induction fuel as [|fuel IH]; intros buf; cbn [a_next_line_loop]; [constructor|]. constructor; [apply lock2_next|].
  intros [pkt|]; cbv zeta.
  - destruct (find_sub CRLF (buf ++ pkt)); [|apply IH]. apply sim2_bind; [apply Hp|]. constructor.
  - apply sim2_bind; [apply Hp|]. constructor.
Qed.
Lemma sim2_new_mail : sim2 (us_new_mail (any_user (W := W) (counting ac))) (us_new_mail (any_user ac)).
Proof.
  apply sim2_op. intros l x r l' x' E. unfold op_new_mail in E |- *. cbn in E |- *.
  destruct (uf_poll (ac_new_mail ac) l (fst (st_cfg (w_st x)))) as [[[|[[]|]] l1] c]; injection E as <- <- <-; reflexivity.
Qed.
Lemma sim2_filter {X} (f : ufuture (C * U * X) decision) v (finish2 : decision -> X -> @st C2 U W -> @st C2 U W) finish1 :
  (forall d v s, erase_st (finish2 d v s) = finish1 d v (erase_st s)) -> sim2 (a_filter (count_filter f) v finish2) (a_filter f v finish1).
Proof.
  intros H. apply (sim2_op (op_filter (count_filter f) finish2) (op_filter f finish1)). intros [l w] x r l' x' E. unfold op_filter in E |- *. cbn in E |- *.
  destruct (st_cfg (w_st x)) as [c0 j]. cbn [fst] in *.
  destruct (uf_poll f l (c0, st_user (w_st x), w)) as [[[|[d|]] l1] [[c u] v1]]; injection E as <- <- <-; try reflexivity.
  unfold erase at 2. cbn [w_st upd]. rewrite H. reflexivity.
Qed.
Lemma count_run {L} (h : hpoll L C U) n : forall d data cs, run_hpoll (count_poll n h) d data cs =
  let '(e, d', data', cs') := run_hpoll h d data cs in
  (match e with EWait l c u => EWait l (c, 1 + n) u | EReturn v c u => EReturn v (c, n) u | EPanic => EPanic | ECompletePanic => ECompletePanic | EFuel => EFuel end, d', data', cs').
Proof.
  induction h as [k IH|k IH|l c u|v c u|]; intros d data cs; cbn [count_poll run_hpoll]; try reflexivity.
  - destruct (ds_poll d) as [[b| |] d1]; [apply IH..|reflexivity].
  - destruct (ds_complete d) as [[| |] d1]; [apply IH..|reflexivity].
Qed.
Lemma sim2_handle m : sim2 (us_handle_mail (any_user (W := W) (counting ac)) m) (us_handle_mail (any_user ac) m).
Proof.
  apply sim2_bind; [now apply sim2_read|]. intros u0. apply (sim2_op (op_handle u0 m (count_handler (ac_handle_mail ac m))) (op_handle u0 m (ac_handle_mail ac m))).
  intros [[[[h t] buf] data] cs] x r l' x' E. unfold op_handle in E |- *. cbv zeta in E |- *. cbn in E |- *. rewrite count_run in E.
  destruct (run_hpoll _ _ data cs) as [[[e d] data'] cs']. destruct e as [h' c u|v c u| | |]; injection E as <- <- <-; reflexivity.
Qed.
Lemma sim2_interact : sim2 (interact_any (counting ac) out2) (interact_any ac out1).
Proof.
  assert (Hm : forall o, sim2 (sync (fun s => (Ret tt, set_mail s o))) (sync (fun s => (Ret tt, set_mail s o)))) by (intros o; now apply sim2_sync).
  apply sim2_bind; [now apply sim2_say|]. intros _. apply sim2_bind; [now apply sim2_read|]. intros fuel.
  induction fuel as [|fuel IH]; cbn [a_loop]; [constructor|].
  apply sim2_bind; [apply sim2_next_line|]. intros [l|]; [|constructor]. apply sim2_bind; [|intros _; exact IH]. clear fuel IH.
  unfold a_handle_line. destruct (command_parse l) as [c|n| | |]; try (now apply sim2_say); [|constructor].
  destruct c; try (now apply sim2_say).
  - apply sim2_bind; [now apply sim2_read|]. intros [m|]; [|now apply sim2_say].
    apply sim2_bind; [apply Hm|]. intros _. destruct (mm_to m).
    + apply sim2_bind; [now apply sim2_say|]. intros _. apply Hm.
    + apply sim2_bind; [apply sim2_bind; [now apply sim2_read|]; intros u0; now apply (sim2_filter (ac_filter_data ac))|]. intros [[|code msg] m'].
      * apply sim2_bind; [now apply sim2_say|]. intros _.
        apply sim2_bind; [apply sim2_handle|]. intros [v []]; try constructor. destruct v; [now apply sim2_say|apply sim2_reply].
      * apply sim2_bind; [apply sim2_reply|]. intros _. apply Hm.
  - apply sim2_bind; [now apply sim2_read|]. intros [m|]; [now apply sim2_say|].
    apply sim2_bind; [apply sim2_new_mail|]. intros _. apply sim2_bind; [apply sim2_bind; [now apply sim2_read|]; intros u0; now apply (sim2_filter (ac_filter_from ac))|].
    intros [[|code msg] f']; [|apply sim2_reply]. apply sim2_bind; [now apply sim2_say|]. intros _. apply Hm.
  - apply sim2_bind; [now apply sim2_read|]. intros [m|]; [|now apply sim2_say].
    apply sim2_bind; [apply sim2_bind; [now apply sim2_read|]; intros u0; apply sim2_bind; [now apply (sim2_filter (ac_filter_to ac))|]; intros [d [m' to']]; constructor|].
    intros [[[|code msg] m'] f']; [|apply sim2_reply]. apply sim2_bind; [apply Hm|]. intros _. now apply sim2_say.
Qed.
Lemma counting_counts : counts_waits snd (counting ac).
Proof.
  assert (Hf : forall X R (f : ufuture (C * U * X) R), counts (fun s : C2 * U * X => snd (fst (fst s))) (count_filter f)).
  { intros X R f l [[[c n] u] v] r l' s' E. cbn in E. destruct (uf_poll f l (c, u, v)) as [[q l1] [[c1 u1] v1]]. injection E as <- <- <-. reflexivity. }
  split; try apply Hf.
  - intros l [c n] r l' s' E. cbn in E. destruct (uf_poll (ac_new_mail ac) l c) as [[q l1] c1]. injection E as <- <- <-. reflexivity.
  - intros m l [c n] u size. cbn. induction (hf_poll (ac_handle_mail ac m) l c u size) as [k IH|k IH|h c1 u1|v c1 u1|]; cbn; auto.
Qed.
End Counting.
