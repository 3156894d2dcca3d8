(** How the future of Async.v calls the sink. *)
From Verif Require Import Bytes Nom SmtpString Ip Message Reply Stream Interact SinkFuture Async SpecPrompt SpecAsync.

(** ** Records of calls *)
Definition fine (h : list call) : Prop := contract h /\ ~ In false (final_answers h).
Definition spoilt (h : list call) : Prop := contract h /\ In false (final_answers h).
Definition granted (h : list call) : Prop := exists h', h = h' ++ [CReady (Ready true)].
Lemma snoc_split {A} (h : list A) c p x q : h ++ [c] = p ++ x :: q -> (q = [] /\ p = h /\ x = c) \/ exists q', q = q' ++ [c] /\ h = p ++ x :: q'.
Proof.
  destruct q as [|y q _] using rev_ind.
  - intros E. apply app_inj_tail in E. destruct E as [-> ->]. now left.
  - intros E. change (p ++ x :: q ++ [y]) with (p ++ (x :: q) ++ [y]) in E. rewrite app_assoc in E. apply app_inj_tail in E.
    destruct E as [-> ->]. right. exists q. now split.
Qed.
Lemma answered_false h c : answer_of c = [false] -> In c h -> In false (final_answers h).
Proof. intros E H. apply in_flat_map. exists c. split; [exact H|]. rewrite E. now left. Qed.
Lemma contract_snoc h c : fine h -> (match c with CSend _ _ => granted h | _ => True end) -> contract (h ++ [c]).
Proof.
  intros [[F1 F2] F3] Hc. split.
  - intros p b ok q E. apply snoc_split in E. destruct E as [(-> & -> & <-)|(q' & -> & E)]; [exact Hc|]. exact (F1 _ _ _ _ E).
  - intros p d q E Ed. apply snoc_split in E. destruct E as [(-> & _ & _)|(q' & -> & E)]; [reflexivity|].
    elim F3. apply (answered_false _ d Ed). rewrite E. apply in_elt.
Qed.
Lemma final_snoc h c : final_answers (h ++ [c]) = final_answers h ++ answer_of c.
Proof. unfold final_answers. rewrite flat_map_app. cbn. now rewrite app_nil_r. Qed.
Lemma fine_snoc h c : fine h -> (match c with CSend _ _ => granted h | _ => True end) -> ~ In false (answer_of c) -> fine (h ++ [c]).
Proof.
  intros F Hc Ha. split; [now apply contract_snoc|]. rewrite final_snoc. intros H. apply in_app_or in H. destruct H; [now apply (proj2 F)|contradiction].
Qed.
Lemma spoilt_snoc h c : fine h -> (match c with CSend _ _ => granted h | _ => True end) -> In false (answer_of c) -> spoilt (h ++ [c]).
Proof.
  intros F Hc Ha. split; [now apply contract_snoc|]. rewrite final_snoc. apply in_or_app. now right.
Qed.

Section Contract.
Context {C U K : Type}.
Variable cfg : config C U.
Variable ks : @ksink K.
Notation state := (@st C U (K * list call)).
Notation world := (@world C U (K * list call)).
Notation async := (@async C U (K * list call)).
Notation out := (any_sink (recording ks)).

(** Before a line is handed to the adapter its [poll_ready] has said [Ok]. *)
Definition G (b : bool) (s : state) : Prop :=
  fine (snd (st_w s)) /\ (b = true \/ st_with s <> None -> granted (snd (st_w s))).
Lemma G_weak b s : G b s -> G false s.
Proof. intros [H1 H2]. split; [exact H1|]. intros [H|H]; [discriminate|]. apply H2. now right. Qed.
Definition after {B} (r : poll (outcome B)) (P Q : bool) (s : state) : Prop :=
  match r with
  | Pending => G P s
  | Ready (Ret _) => G Q s
  | Ready WriteErr => spoilt (snd (st_w s))
  | Ready _ => G false s
  end.
Inductive ct {A} (Q : bool) : bool -> async A -> Prop :=
| ct_ret P a : P = true \/ Q = false -> ct Q P (ADone (Ret a))
| ct_fail P o : match o with Panic | NoFuel => True | _ => False end -> ct Q P (ADone o)
| ct_await P R L B (op : L -> world -> poll (outcome B) * L * world) l k :
    (forall l x r l' x', G P (w_st x) -> op l x = (r, l', x') -> after r P R (w_st x')) ->
    (forall b, ct Q R (k b)) -> ct Q P (AAwait op l k)
| ct_weak P p : ct Q false p -> ct Q P p.
Lemma ct_bind {A B} (Q R P : bool) (p : async A) (f : A -> async B) :
  ct R P p -> (forall a, ct Q R (f a)) -> ct Q P (abind p f).
Proof.
  intros H Hf. induction H as [P a Ha|P o Ho|P P' L T op l k Ho Hk IH|P p Hp IH].
  - cbn. destruct Ha as [->| ->].
    + destruct R; [apply Hf|apply ct_weak, Hf].
    + apply ct_weak, Hf.
  - destruct o; cbn; try contradiction; now apply ct_fail.
  - cbn. eapply ct_await; [exact Ho|]. exact IH.
  - apply ct_weak, IH.
Qed.
Lemma ct_poll {A} Q P (p : async A) : ct Q P p -> forall x r x', G P (w_st x) -> poll_async p x = (r, x') ->
  match r with
  | inl WriteErr => spoilt (calls x')
  | inl _ => G false (w_st x')
  | inr p' => exists P', ct Q P' p' /\ G P' (w_st x')
  end.
Proof.
  induction 1 as [P a Ha|P o Ho|P P' L B op l k Ho Hk IH|P p Hp IH]; intros x r x' Gx E.
  - injection E as <- <-. exact (G_weak _ _ Gx).
  - injection E as <- <-. destruct o; try contradiction; exact (G_weak _ _ Gx).
  - cbn in E. destruct (op l x) as [[q l'] x1] eqn:Eo. pose proof (Ho _ _ _ _ _ Gx Eo) as Hq.
    destruct q as [|[b| | |]]; cbn in Hq.
    + injection E as <- <-. exists P. split; [now apply (ct_await Q P P')|exact Hq].
    + exact (IH _ _ _ _ Hq E).
    + injection E as <- <-. exact Hq.
    + injection E as <- <-. exact Hq.
    + injection E as <- <-. exact Hq.
  - exact (IH _ _ _ (G_weak _ _ Gx) E).
Qed.
Lemma ct_polls {A} Q n : forall P (p : async A), ct Q P p -> forall x r x', G P (w_st x) -> after_polls n p x = (r, x') ->
  match r with
  | inl WriteErr => spoilt (calls x')
  | _ => G false (w_st x')
  end.
Proof.
  induction n as [|n IH]; intros P p Hp x r x' Gx E; cbn [after_polls] in E.
  - injection E as <- <-. exact (G_weak _ _ Gx).
  - destruct (poll_async p x) as [q x1] eqn:Q1. pose proof (ct_poll _ _ _ Hp _ _ _ Gx Q1) as H. destruct q as [o|p'].
    + injection E as <- <-. exact H.
    + destruct H as (P' & H1 & H2). exact (IH _ _ H1 _ _ _ H2 E).
Qed.

(** ** The leaves *)
Definition still (s s' : state) : Prop := st_w s' = st_w s /\ st_with s' = st_with s.
Lemma G_still P s s' : still s s' -> G P s -> G P s'.
Proof. intros [E1 E2]. unfold G. now rewrite E1, E2. Qed.
Lemma ct_sync {B} P (f : state -> outcome B * state) :
  (forall s, still s (snd (f s)) /\ fst (f s) <> WriteErr) -> ct P P (sync f).
Proof.
  intros H. apply (ct_await P P P).
  - intros l x r l' x' Gx E. destruct (H (w_st x)) as [H1 H2]. destruct (f (w_st x)) as [o s']. injection E as <- <- <-. cbn in *.
    pose proof (G_still P _ _ H1 Gx) as Gx'. destruct o; [exact Gx'|now elim H2|exact (G_weak _ _ Gx')|exact (G_weak _ _ Gx')].
  - intros b. apply ct_ret. destruct P; auto.
Qed.
Lemma ct_user {B} P (f : state -> B * state) : (forall s, still s (snd (f s))) -> ct P P (a_user f).
Proof.
  intros H. apply (ct_await P P P).
  - intros l x r l' x' Gx E. unfold op_user, ask in E.
    destruct (w_sched x) as [|[|] sch]; cbn [w_st] in E.
    + pose proof (H (w_st x)) as H1. destruct (f (w_st x)) as [b s']. injection E as <- <- <-. exact (G_still P _ _ H1 Gx).
    + injection E as <- <- <-. exact Gx.
    + pose proof (H (w_st x)) as H1. destruct (f (w_st x)) as [b s']. injection E as <- <- <-. exact (G_still P _ _ H1 Gx).
  - intros b. apply ct_ret. destruct P; auto.
Qed.
Lemma ct_read {B} P (f : state -> B) : ct P P (read f).
Proof. apply ct_sync. intros s. now repeat split. Qed.
(** The adapter hands its line over. *)
Lemma with_poll_ct (s : state) o s' : G false s -> with_poll (@sender C U _ out) s = (o, s') ->
  (o = Ret tt /\ G false s' /\ st_with s' = None) \/ (o = WriteErr /\ spoilt (snd (st_w s'))).
Proof.
  intros [F Gr] E. destruct s as [c u m rd [k h] [b|] tr]; unfold with_poll in E; cbn in *.
  - assert (Gh : granted h) by (apply Gr; right; discriminate). clear Gr. destruct (k_start ks k b) as [r k']. cbn in E.
    destruct r; cbn in E; injection E as <- <-.
    + left. split; [reflexivity|]. split; [|reflexivity]. split; [|intros [H|H]; [discriminate|now elim H]]. cbn.
      apply fine_snoc; [exact F|exact Gh|]. cbn. intros [H|[]]; discriminate.
    + right. split; [reflexivity|]. cbn. apply spoilt_snoc; [exact F|exact Gh|]. now left.
    + right. split; [reflexivity|]. cbn. apply spoilt_snoc; [exact F|exact Gh|]. now left.
  - injection E as <- <-. left. split; [reflexivity|]. split; [|reflexivity]. now split.
Qed.
Lemma after_ready l x r l' x' : G false (w_st x) -> op_ready out l x = (r, l', x') -> after r false true (w_st x').
Proof.
  intros Gx E. unfold op_ready in E. destruct (with_poll (@sender C U _ out) (w_st x)) as [o s] eqn:P.
  destruct (with_poll_ct _ _ _ Gx P) as [(-> & Gs & Ws)|[-> Sp]].
  - destruct s as [c u m rd [k h] wi tr]. cbn in Ws, E. subst wi. destruct Gs as [F _]. cbn in F.
    destruct (k_ready ks k) as [[|[|]] k'] eqn:Ek; cbn in E; injection E as <- <- <-; cbn.
    + split; [|intros [H|H]; [discriminate|now elim H]]. apply fine_snoc; [exact F|exact I|intros []].
    + split; [|intros _; now exists h]. apply fine_snoc; [exact F|exact I|]. cbn. intros [H|[]]; discriminate.
    + apply spoilt_snoc; [exact F|exact I|now left].
  - injection E as <- <- <-. exact Sp.
Qed.
Lemma after_flush l x r l' x' : G false (w_st x) -> op_flush out l x = (r, l', x') -> after r false false (w_st x').
Proof.
  intros Gx E. unfold op_flush in E. destruct (with_poll (@sender C U _ out) (w_st x)) as [o s] eqn:P.
  destruct (with_poll_ct _ _ _ Gx P) as [(-> & Gs & Ws)|[-> Sp]].
  - destruct s as [c u m rd [k h] wi tr]. cbn in Ws, E. subst wi. destruct Gs as [F _]. cbn in F.
    destruct (k_flush ks k) as [[|[|]] k'] eqn:Ek; cbn in E; injection E as <- <- <-; cbn.
    + split; [|intros [H|H]; [discriminate|now elim H]]. apply fine_snoc; [exact F|exact I|intros []].
    + split; [|intros [H|H]; [discriminate|now elim H]]. apply fine_snoc; [exact F|exact I|]. cbn. intros [H|[]]; discriminate.
    + apply spoilt_snoc; [exact F|exact I|now left].
  - injection E as <- <- <-. exact Sp.
Qed.
Lemma ct_start_send rl : ct false true (sync (fun s : state => with_start_send s rl)).
Proof.
  apply (ct_await false true false); [|intros b; apply ct_ret; now right].
  intros l x r l' x' [F Gr] E. unfold with_start_send in E. specialize (Gr (or_introl eq_refl)).
  destruct (_ <? _)%nat; injection E as <- <- <-; (split; [exact F|intros _; exact Gr]).
Qed.
Lemma ct_send_reply r : ct false false (a_send_reply out r).
Proof.
  unfold a_send_reply. destruct (byte_chunks _ _) as [chunks|]; [|now apply ct_fail].
  induction chunks as [|t chunks IH]; cbn [a_send_chunks].
  - apply (ct_await false false false); [exact after_flush|]. intros b. apply ct_ret. now right.
  - destruct (reply_build _ _ t) as [rl|e]; [|now apply ct_fail]. apply (ct_await false false true); [exact after_ready|]. intros [].
    apply (ct_bind false false true); [apply ct_start_send|]. intros _. exact IH.
Qed.
(** ** The future *)
Ltac seq := apply (ct_bind false false false).
Lemma ct_say which : ct false false (a_say out which).
Proof. seq; [apply ct_read|]. apply ct_send_reply. Qed.
Lemma ct_next_line : ct false false a_next_line.
Proof.
  seq; [apply ct_read|]. intros fuel. generalize (@nil N) as buf.
  assert (Hp : forall b, ct false false (a_prepend b)).
  { intros b. apply ct_sync. intros s. destruct (prep_prepend (st_reader s) b); now repeat split. }
  induction fuel as [|fuel IH]; intros buf; cbn [a_next_line_loop]; [now apply ct_fail|].
  apply (ct_await false false false).
  - intros l x r l' x' Gx E. unfold op_next in E. destruct (prep_poll (st_reader (w_st x))) as [[|b] p]; injection E as <- <- <-; exact Gx.
  - intros [pkt|]; cbv zeta.
    + destruct (find_sub CRLF (buf ++ pkt)); [|apply IH]. seq; [apply Hp|]. intros _. apply ct_ret. now right.
    + seq; [apply Hp|]. intros _. apply ct_ret. now right.
Qed.
Lemma ct_handler u0 m h : forall t buf data cs, ct false false (a_handler u0 m h t buf data cs).
Proof.
  assert (Hp : ct false false (a_user (fun s : state => (st_reader s, s)))) by (apply ct_user; intros s; now split).
  induction h as [stop k IH|k IH|q IH|v c u]; intros t buf data cs; cbn [a_handler]; (seq; [exact Hp|]); intros reader.
  - seq; [|intros [[[items over] t'] buf']; apply IH].
    generalize (S (ds_size (DS reader t buf))) as fuel. generalize (@nil bytes) as acc. intros acc fuel. revert acc t buf.
    induction fuel as [|fuel IHf]; intros acc t buf; cbn [a_read_until]; destruct (stop acc); try (apply ct_ret; now right); try (now apply ct_fail).
    apply (ct_await false false false).
    + intros l x r l' x' Gx E. unfold op_stream in E. destruct (ds_poll _) as [[b| |] d]; injection E as <- <- <-; exact Gx.
    + intros [[[b|] t'] buf']; [apply IHf|apply ct_ret; now right].
  - seq; [|intros [[[| |] t'] buf']; [apply IH|apply IH|]].
    + apply ct_sync. intros s. destruct (ds_complete (DS (st_reader s) t buf)) as [r d]. now repeat split.
    + apply ct_sync. intros s. now repeat split.
  - seq; [|intros [[r t'] buf']; apply IH].
    apply ct_sync. intros s. destruct (ds_poll (DS (st_reader s) t buf)) as [[x| |] d]; now repeat split.
  - apply ct_sync. intros s. now repeat split.
Qed.
Lemma ct_set_mail o : ct false false (sync (fun s : state => (Ret tt, set_mail s o))).
Proof. apply ct_sync. intros s. now repeat split. Qed.
(** The user's code has no business with the sink. *)
Record ct_usercode (us : @usercode C U (K * list call)) : Prop := {
  cu_new_mail : ct false false (us_new_mail us);
  cu_filter_from : forall from, ct false false (us_filter_from us from);
  cu_filter_to : forall m to, ct false false (us_filter_to us m to);
  cu_filter_data : forall m, ct false false (us_filter_data us m);
  cu_handle_mail : forall m, ct false false (us_handle_mail us m)
}.
Lemma ct_scheduled_user : ct_usercode (scheduled_user cfg).
Proof.
  split; intros.
  - apply ct_user; intros s; now split.
  - apply ct_user; intros s; unfold call_filter_from; destruct (cf_filter_from cfg _ _ _) as [[[d c] u] m']; now split.
  - apply ct_user; intros s; unfold call_filter_to; destruct (cf_filter_to cfg _ _ _ _) as [[[[d c] u] m'] t']; now split.
  - apply ct_user; intros s; unfold call_filter_data; destruct (cf_filter_data cfg _ _ _) as [[[d c] u] m']; now split.
  - seq; [apply ct_read|intros [[c2 u2] d2]; apply ct_handler].
Qed.
Lemma ct_line us l : ct_usercode us -> ct false false (a_handle_line cfg out us l).
Proof.
  intros H. unfold a_handle_line. destruct (command_parse l) as [c|n| | |]; try apply ct_say; [|now apply ct_fail].
  destruct c; try apply ct_say.
  - seq; [apply ct_read|]. intros [m|]; [|apply ct_say].
    seq; [apply ct_set_mail|]. intros _. destruct (mm_to m).
    + seq; [apply ct_say|]. intros _. apply ct_set_mail.
    + seq; [apply (cu_filter_data us H)|]. intros [[|code msg] m'].
      * seq; [apply ct_say|]. intros _.
        seq; [apply (cu_handle_mail us H)|]. intros [v []]; try (now apply ct_fail). destruct v; [apply ct_say|apply ct_send_reply].
      * seq; [apply ct_send_reply|]. intros _. apply ct_set_mail.
  - seq; [apply ct_read|]. intros [m|]; [apply ct_say|].
    seq; [apply (cu_new_mail us H)|]. intros _. seq; [apply (cu_filter_from us H)|].
    intros [[|code msg] f']; [|apply ct_send_reply]. seq; [apply ct_say|]. intros _. apply ct_set_mail.
  - seq; [apply ct_read|]. intros [m|]; [|apply ct_say].
    seq; [apply (cu_filter_to us H)|].
    intros [[[|code msg] m'] f']; [|apply ct_send_reply]. seq; [apply ct_set_mail|]. intros _. apply ct_say.
Qed.
Lemma ct_future_with us : ct_usercode us -> ct false false (interact_with cfg out us).
Proof.
  intros H. seq; [apply ct_say|]. intros _. seq; [apply ct_read|]. intros fuel.
  induction fuel as [|fuel IH]; cbn [a_loop]; [now apply ct_fail|].
  seq; [apply ct_next_line|]. intros [l|]; [|apply ct_ret; now right]. seq; [now apply ct_line|]. intros _. exact IH.
Qed.
Lemma ct_future : ct false false (interact_future cfg out).
Proof. apply ct_future_with, ct_scheduled_user. Qed.
End Contract.
