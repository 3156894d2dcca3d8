(** A session with any sink goes, poll by poll, like one with a writer that gives
    the same answers and is not ready according to a schedule. *)
From Verif Require Import Bytes Nom SmtpString Ip Message Reply Stream Interact SinkFuture Async SpecPrompt SpecAsync.

Section Replay.
Context {C U K V : Type}.
Variable cfg : config C U.
Variable ks : @ksink K.
(** The writer of the other session; [phi h a]: its state when the sink has been
    called as in [h] and will answer as in [a]. *)
Variable wr : writer V.
Variable phi : list call -> list bool -> V.
Hypothesis phi_ready : forall h ok a, w_ready wr (phi h (ok :: a)) = (ok, phi (h ++ [CReady (Ready ok)]) a).
Hypothesis phi_send : forall h b ok a, w_send wr (phi h (ok :: a)) b = (ok, phi (h ++ [CSend b ok]) a).
Hypothesis phi_flush : forall h ok a, w_flush wr (phi h (ok :: a)) = (ok, phi (h ++ [CFlush (Ready ok)]) a).
Hypothesis phi_not_ready : forall h a, phi (h ++ [CReady Pending]) a = phi h a.
Hypothesis phi_not_flushed : forall h a, phi (h ++ [CFlush Pending]) a = phi h a.

Notation stK := (@st C U (K * list call)).
Notation stV := (@st C U V).
Notation worldK := (@world C U (K * list call)).
Notation worldV := (@world C U V).
Notation asyncK := (@async C U (K * list call)).
Notation asyncV := (@async C U V).

Definition put_w {W'} (s : stK) (v : W') : @st C U W' :=
  St (st_cfg s) (st_user s) (st_mail s) (st_reader s) v (st_with s) (st_trace s).
Definition as_v (s : stK) (a : list bool) : stV := put_w s (phi (snd (st_w s)) a).

Record step (x x' : worldK) (rec : list call) (us sch : list bool) (t : list (obs U)) : Prop := {
  sp_calls : calls x' = calls x ++ rec;
  sp_sched : w_sched x = us ++ w_sched x';
  sp_trace : st_trace (w_st x') = st_trace (w_st x) ++ t;
  sp_writes : writes t = sent rec;
  sp_count : count_true sch = count_true us + not_ready rec
}.
(** The one [Pending] answer of a poll is its last. *)
Definition stopped (pending : bool) (rec : list call) (us : list bool) : Prop :=
  if pending
  then (not_ready rec = 0 \/ exists b c, rec = b ++ [c] /\ not_ready b = 0 /\ not_ready [c] = 1)
       /\ (count_true us = 0 \/ exists b, us = b ++ [true] /\ count_true b = 0)
  else not_ready rec = 0 /\ count_true us = 0.
Definition lock {L B} (op : L -> worldK -> poll (outcome B) * L * worldK) (op' : L -> worldV -> poll (outcome B) * L * worldV) : Prop :=
  forall l x r l' x', op l x = (r, l', x') ->
    exists rec us sch t, step x x' rec us sch t
    /\ stopped (match r with Pending => true | _ => false end) rec us
    /\ forall more mans, op' l (World (as_v (w_st x) (final_answers rec ++ mans)) (sch ++ more)) = (r, l', World (as_v (w_st x') mans) more).
Inductive locked {A} : asyncK A -> asyncV A -> Prop :=
| lk_done o : locked (ADone o) (ADone o)
| lk_await L B (op : L -> worldK -> poll (outcome B) * L * worldK) op' l k k' :
    lock op op' -> (forall b, locked (k b) (k' b)) -> locked (AAwait op l k) (AAwait op' l k').

Lemma step_refl x : step x x [] [] [] [].
Proof. split; rewrite ?app_nil_r; reflexivity. Qed.
Lemma count_true_app' a b : count_true (a ++ b) = count_true a + count_true b.
Proof. unfold count_true. now rewrite filter_app, app_length. Qed.
Lemma not_ready_app a b : not_ready (a ++ b) = not_ready a + not_ready b.
Proof. unfold not_ready. now rewrite filter_app, app_length. Qed.
Lemma final_answers_app a b : final_answers (a ++ b) = final_answers a ++ final_answers b.
Proof. apply flat_map_app. Qed.
Lemma step_trans x y z rec us sch t rec' us' sch' t' :
  step x y rec us sch t -> step y z rec' us' sch' t' -> step x z (rec ++ rec') (us ++ us') (sch ++ sch') (t ++ t').
Proof.
  intros [A1 A2 A3 A4 A5] [B1 B2 B3 B4 B5]. split.
  - now rewrite B1, A1, app_assoc.
  - now rewrite A2, B2, app_assoc.
  - now rewrite B3, A3, app_assoc.
  - unfold writes, sent in *. now rewrite !flat_map_app, A4, B4.
  - rewrite !count_true_app', not_ready_app. lia.
Qed.
Lemma locked_bind {A B} (p : asyncK A) p' (f : A -> asyncK B) f' :
  locked p p' -> (forall a, locked (f a) (f' a)) -> locked (abind p f) (abind p' f').
Proof.
  intros H Hf. induction H as [[a| | |]|L T op op' l k k' Ho Hk IH]; cbn; try constructor; try assumption. apply Hf.
Qed.
Definition same_result {A} (r : outcome A + asyncK A) (r' : outcome A + asyncV A) : Prop :=
  match r, r' with inl o, inl o' => o = o' | inr q, inr q' => locked q q' | _, _ => False end.
Lemma stopped_app b rec us rec' us' : stopped false rec us -> stopped b rec' us' -> stopped b (rec ++ rec') (us ++ us').
Proof.
  intros [H1 H2]. destruct b; cbn.
  - intros [[H3|(r & c & -> & H3 & H4)] [H5|(r' & -> & H6)]]; split.
    all: try (left; rewrite ?not_ready_app, ?count_true_app'; lia).
    all: right.
    + exists (us ++ r'). rewrite count_true_app'. split; [apply app_assoc|lia].
    + exists (rec ++ r), c. rewrite not_ready_app. split; [apply app_assoc|]. split; [lia|exact H4].
    + exists (rec ++ r), c. rewrite not_ready_app. split; [apply app_assoc|]. split; [lia|exact H4].
    + exists (us ++ r'). rewrite count_true_app'. split; [apply app_assoc|lia].
  - intros [H3 H4]. rewrite not_ready_app, count_true_app'. lia.
Qed.
Lemma stopped_nil b : stopped b [] [].
Proof. destruct b; cbn; auto. Qed.
Lemma locked_poll {A} (p : asyncK A) p' : locked p p' -> forall x r x', poll_async p x = (r, x') ->
  exists rec us sch t r', step x x' rec us sch t /\ same_result r r' /\ stopped (match r with inr _ => true | _ => false end) rec us
  /\ forall more mans, poll_async p' (World (as_v (w_st x) (final_answers rec ++ mans)) (sch ++ more)) = (r', World (as_v (w_st x') mans) more).
Proof.
  induction 1 as [o|L B op op' l k k' Ho Hk IH]; intros x r x' E; cbn [poll_async] in E.
  - injection E as <- <-. exists [], [], [], [], (inl o). split; [apply step_refl|]. split; [reflexivity|]. split; [apply (stopped_nil false)|reflexivity].
  - destruct (op l x) as [[q l'] x1] eqn:Q. destruct (Ho _ _ _ _ _ Q) as (rec & us & sch & t & S & T & H).
    destruct q as [|[b| | |]].
    + injection E as <- <-. exists rec, us, sch, t, (inr (AAwait op' l' k')). split; [exact S|]. split; [now constructor|]. split; [exact T|].
      intros more mans. cbn [poll_async]. now rewrite H.
    + destruct (IH _ _ _ _ E) as (rec2 & us2 & sch2 & t2 & r' & S2 & R & T2 & H2).
      exists (rec ++ rec2), (us ++ us2), (sch ++ sch2), (t ++ t2), r'. split; [eapply step_trans; eassumption|]. split; [exact R|]. split; [now apply stopped_app|].
      intros more mans. cbn [poll_async]. rewrite final_answers_app, <- !app_assoc, H. apply H2.
    + injection E as <- <-. exists rec, us, sch, t, (inl WriteErr). split; [exact S|]. split; [reflexivity|]. split; [exact T|]. intros more mans. cbn [poll_async]. now rewrite H.
    + injection E as <- <-. exists rec, us, sch, t, (inl Panic). split; [exact S|]. split; [reflexivity|]. split; [exact T|]. intros more mans. cbn [poll_async]. now rewrite H.
    + injection E as <- <-. exists rec, us, sch, t, (inl NoFuel). split; [exact S|]. split; [reflexivity|]. split; [exact T|]. intros more mans. cbn [poll_async]. now rewrite H.
Qed.
Lemma locked_polls {A} n : forall (p : asyncK A) p', locked p p' -> forall x r x', after_polls n p x = (r, x') ->
  exists rec us sch t r', step x x' rec us sch t /\ same_result r r'
  /\ forall more mans, after_polls n p' (World (as_v (w_st x) (final_answers rec ++ mans)) (sch ++ more)) = (r', World (as_v (w_st x') mans) more).
Proof.
  induction n as [|n IH]; intros p p' Hp x r x' E; cbn [after_polls] in E.
  - injection E as <- <-. exists [], [], [], [], (inr p'). split; [apply step_refl|]. now split.
  - destruct (poll_async p x) as [q x1] eqn:Q. destruct (locked_poll _ _ Hp _ _ _ Q) as (rec & us & sch & t & q' & S & R & _ & H).
    destruct q as [o|q], q' as [o'|q']; cbn in R; try contradiction.
    + subst o'. injection E as <- <-. exists rec, us, sch, t, (inl o). split; [exact S|]. split; [reflexivity|].
      intros more mans. cbn [after_polls]. now rewrite H.
    + destruct (IH _ _ R _ _ _ E) as (rec2 & us2 & sch2 & t2 & r' & S2 & R2 & H2).
      exists (rec ++ rec2), (us ++ us2), (sch ++ sch2), (t ++ t2), r'. split; [eapply step_trans; eassumption|]. split; [exact R2|].
      intros more mans. cbn [after_polls]. rewrite final_answers_app, <- !app_assoc, H. apply H2.
Qed.

(** ** The leaves *)
(** Code that has nothing to do with the writer. *)
Definition aside {B} (f : stK -> B * stK) (f' : stV -> B * stV) : Prop :=
  forall s, snd (st_w (snd (f s))) = snd (st_w s)
    /\ (exists t, st_trace (snd (f s)) = st_trace s ++ t /\ writes t = [])
    /\ forall v, f' (put_w s v) = (fst (f s), put_w (snd (f s)) v).
Lemma lock_sync {B} (f : stK -> outcome B * stK) f' : aside f f' -> locked (sync f) (sync f').
Proof.
  intros H. constructor; [|constructor]. intros l x r l' x' E. destruct (f (w_st x)) as [o s'] eqn:F. injection E as <- <- <-.
  destruct (H (w_st x)) as (H1 & (t & H2 & H3) & H4). rewrite F in H1, H2, H4. cbn [fst snd] in *. exists [], [], [], t. split.
  - split; cbn; rewrite ?app_nil_r; try assumption; try reflexivity.
  - split; [now destruct o|]. intros more mans. cbn. unfold as_v. rewrite H4, H1. reflexivity.
Qed.
Lemma lock_user {B} (f : stK -> B * stK) f' : aside f f' -> locked (a_user f) (a_user f').
Proof.
  intros H. constructor; [|constructor]. intros l x r l' x' E. unfold op_user in E.
  assert (G : exists us b, ask x = (b, World (w_st x) (w_sched (snd (ask x)))) /\ w_sched x = us ++ w_sched (snd (ask x)) /\ count_true us = (if b then 1 else 0)
    /\ (count_true us = 0 \/ exists b, us = b ++ [true] /\ count_true b = 0)).
  { unfold ask. destruct x as [s [|b sch]]; cbn; [exists [], false|exists [b], b]; repeat split; [now left|now destruct b|]. destruct b; [right|now left]. now exists []. }
  destruct G as (us & b & Ea & Es & Ec & Gl). rewrite Ea in E. destruct b.
  - injection E as <- <- <-. exists [], us, [true], []. split.
    + split; cbn; rewrite ?app_nil_r; try assumption; try reflexivity. now rewrite Ec.
    + split; [|intros more mans; destruct l; reflexivity]. cbn. split; [now left|]. exact Gl.
  - cbn [w_st] in E. destruct (f (w_st x)) as [o s'] eqn:F. injection E as <- <- <-.
    destruct (H (w_st x)) as (H1 & (t & H2 & H3) & H4). rewrite F in H1, H2, H4. cbn [fst snd] in *. exists [], us, [false], t. split.
    + split; cbn; rewrite ?app_nil_r; try assumption; try reflexivity. now rewrite Ec.
    + split; [cbn; now rewrite Ec|]. intros more mans. cbn. unfold op_user. cbn. unfold as_v. rewrite H4, H1. reflexivity.
Qed.
Lemma lock_read {B} (f : stK -> B) f' : (forall s v, f' (put_w s v) = f s) -> locked (read f) (read f').
Proof.
  intros H. apply lock_sync. intros s. cbn. split; [reflexivity|]. split; [exists []; split; [symmetry; apply app_nil_r|reflexivity]|].
  intros v. now rewrite H.
Qed.
Lemma with_poll_lock (x : worldK) : 
  exists rec t, snd (st_w (snd (with_poll (@sender C U _ (any_sink (recording ks))) (w_st x)))) = calls x ++ rec
  /\ st_trace (snd (with_poll (@sender C U _ (any_sink (recording ks))) (w_st x))) = st_trace (w_st x) ++ t
  /\ writes t = sent rec /\ not_ready rec = 0
  /\ forall mans, with_poll (@sender C U _ (scheduled wr)) (as_v (w_st x) (final_answers rec ++ mans))
     = (fst (with_poll (@sender C U _ (any_sink (recording ks))) (w_st x)), as_v (snd (with_poll (@sender C U _ (any_sink (recording ks))) (w_st x))) mans).
Proof.
  destruct x as [[c u m rd [k h] [b|] tr] sch]; unfold with_poll, calls; cbn -[writes].
  - destruct (k_start ks k b) as [[| |] k'] eqn:E; cbn -[writes].
    + exists [CSend b true], [OWrite b]. repeat split. intros mans. cbn. rewrite phi_send. reflexivity.
    + exists [CSend b false], []. rewrite app_nil_r. repeat split. intros mans. cbn. rewrite phi_send. reflexivity.
    + exists [CSend b false], []. rewrite app_nil_r. repeat split. intros mans. cbn. rewrite phi_send. reflexivity.
  - exists [], []. rewrite !app_nil_r. repeat split.
Qed.
Lemma lock_ready : lock (op_ready (any_sink (recording ks))) (op_ready (scheduled wr)).
Proof.
  intros l x r l' x' E. destruct (with_poll_lock x) as (rec & t & P1 & P2 & P3 & P4 & P5). unfold op_ready in E.
  destruct (with_poll (@sender C U _ (any_sink (recording ks))) (w_st x)) as [o s] eqn:P. cbn [fst snd] in *.
  destruct o as [[]| | |];
    [|injection E as <- <- <-; exists rec, [], [], t; (split; [split; [exact P1|reflexivity|exact P2|exact P3|cbn; lia]|]);
      (split; [split; [exact P4|reflexivity]|]); intros more mans; unfold op_ready; cbn [w_st app]; rewrite P5; reflexivity..].
  destruct s as [c u m rd [k h] wi tr]. cbn in E, P1, P2.
  destruct (k_ready ks k) as [a k'] eqn:Ek. cbn in E.
  assert (Ex : x' = World (St c u m rd (k', h ++ [CReady a]) wi tr) (w_sched x) /\ r = match a with Pending => Pending | Ready true => Ready (Ret tt) | Ready false => Ready WriteErr end /\ l' = tt).
  { destruct a as [|[|]]; injection E as <- <- <-; repeat split. }
  destruct Ex as (-> & -> & ->). destruct a as [|ok].
  - exists (rec ++ [CReady Pending]), [], [true], t. split.
    + split; cbn; try assumption; try reflexivity.
      * now rewrite P1, app_assoc.
      * unfold sent. rewrite flat_map_app. cbn. now rewrite app_nil_r.
      * rewrite not_ready_app, P4. reflexivity.
    + split; [split; [right; now exists rec, (CReady Pending)|now left]|].
      intros more mans. unfold op_ready. cbn [w_st]. rewrite final_answers_app. cbn [final_answers flat_map answer_of app]. rewrite app_nil_r, P5.
      cbn. unfold as_v. cbn. rewrite phi_not_ready. reflexivity.
  - exists (rec ++ [CReady (Ready ok)]), [], [false], t. split.
    + split; cbn; try assumption; try reflexivity.
      * now rewrite P1, app_assoc.
      * unfold sent. rewrite flat_map_app. cbn. now rewrite app_nil_r.
      * rewrite not_ready_app, P4. reflexivity.
    + split; [destruct ok; (split; [rewrite not_ready_app, P4|]; reflexivity)|].
      intros more mans. unfold op_ready. cbn [w_st]. rewrite final_answers_app, <- app_assoc. cbn [final_answers flat_map answer_of app]. rewrite P5.
      cbn. unfold as_v. cbn. rewrite phi_ready. destruct ok; reflexivity.
Qed.
Lemma lock_flush : lock (op_flush (any_sink (recording ks))) (op_flush (scheduled wr)).
Proof.
  intros l x r l' x' E. destruct (with_poll_lock x) as (rec & t & P1 & P2 & P3 & P4 & P5). unfold op_flush in E.
  destruct (with_poll (@sender C U _ (any_sink (recording ks))) (w_st x)) as [o s] eqn:P. cbn [fst snd] in *.
  destruct o as [[]| | |];
    [|injection E as <- <- <-; exists rec, [], [], t; (split; [split; [exact P1|reflexivity|exact P2|exact P3|cbn; lia]|]);
      (split; [split; [exact P4|reflexivity]|]); intros more mans; unfold op_flush; cbn [w_st app]; rewrite P5; reflexivity..].
  destruct s as [c u m rd [k h] wi tr]. cbn in E, P1, P2.
  destruct (k_flush ks k) as [a k'] eqn:Ek. cbn in E.
  assert (Ex : x' = World (St c u m rd (k', h ++ [CFlush a]) wi tr) (w_sched x) /\ r = match a with Pending => Pending | Ready true => Ready (Ret tt) | Ready false => Ready WriteErr end /\ l' = tt).
  { destruct a as [|[|]]; injection E as <- <- <-; repeat split. }
  destruct Ex as (-> & -> & ->). destruct a as [|ok].
  - exists (rec ++ [CFlush Pending]), [], [true], t. split.
    + split; cbn; try assumption; try reflexivity.
      * now rewrite P1, app_assoc.
      * unfold sent. rewrite flat_map_app. cbn. now rewrite app_nil_r.
      * rewrite not_ready_app, P4. reflexivity.
    + split; [split; [right; now exists rec, (CFlush Pending)|now left]|].
      intros more mans. unfold op_flush. cbn [w_st]. rewrite final_answers_app. cbn [final_answers flat_map answer_of app]. rewrite app_nil_r, P5.
      cbn. unfold as_v. cbn. rewrite phi_not_flushed. reflexivity.
  - exists (rec ++ [CFlush (Ready ok)]), [], [false], t. split.
    + split; cbn; try assumption; try reflexivity.
      * now rewrite P1, app_assoc.
      * unfold sent. rewrite flat_map_app. cbn. now rewrite app_nil_r.
      * rewrite not_ready_app, P4. reflexivity.
    + split; [destruct ok; (split; [rewrite not_ready_app, P4|]; reflexivity)|].
      intros more mans. unfold op_flush. cbn [w_st]. rewrite final_answers_app, <- app_assoc. cbn [final_answers flat_map answer_of app]. rewrite P5.
      cbn. unfold as_v. cbn. rewrite phi_flush. destruct ok; reflexivity.
Qed.
Lemma no_trace (s : stK) : exists t : list (obs U), st_trace s = st_trace s ++ t /\ writes t = [].
Proof. exists []. split; [symmetry; apply app_nil_r|reflexivity]. Qed.
Lemma lock_next : lock (@op_next C U (K * list call)) op_next.
Proof.
  intros l x r l' x' E. unfold op_next in E. exists [], [], [], [].
  destruct (prep_poll (st_reader (w_st x))) as [q p] eqn:P.
  assert (Ex : x' = upd x (set_reader (w_st x) p) /\ l' = tt /\ r = match q with Pending => Pending | Ready b => Ready (Ret b) end).
  { destruct q; injection E as <- <- <-; repeat split. }
  destruct Ex as (-> & -> & ->). split.
  - split; cbn; rewrite ?app_nil_r; reflexivity.
  - split; [apply stopped_nil|]. intros more mans. unfold op_next. cbn. rewrite P. destruct q; reflexivity.
Qed.
Lemma lock_stream : lock (@op_stream C U (K * list call)) op_stream.
Proof.
  intros l x r l' x' E. unfold op_stream in E. exists [], [], [], [].
  destruct (ds_poll (DS (st_reader (w_st x)) (fst l) (snd l))) as [q d] eqn:P.
  assert (Ex : x' = upd x (set_reader (w_st x) (ds_source d)) /\ l' = (ds_st d, ds_buf d)
     /\ r = match q with DPending => Pending | DReady b => Ready (Ret (b, ds_st d, ds_buf d)) | DFuel => Ready NoFuel end).
  { destruct q; injection E as <- <- <-; repeat split. }
  destruct Ex as (-> & -> & ->). split.
  - split; cbn; rewrite ?app_nil_r; reflexivity.
  - split; [apply stopped_nil|]. intros more mans. unfold op_stream. cbn. rewrite P. destruct q; reflexivity.
Qed.
(** ** The future *)
Ltac aside_auto := intros s; cbn; (split; [reflexivity|]); (split; [try apply no_trace|reflexivity]).
Lemma lock_prepend b : locked (a_prepend b) (a_prepend b).
Proof.
  apply lock_sync. intros s. unfold put_w. cbn. destruct (prep_prepend (st_reader s) b); cbn;
    (split; [reflexivity|]); (split; [apply no_trace|intros v; reflexivity]).
Qed.
Lemma lock_next_line : locked (@a_next_line C U (K * list call)) a_next_line.
Proof.
  apply locked_bind; [now apply lock_read|]. intros fuel. generalize (@nil N) as buf.
  induction fuel as [|fuel IH]; intros buf; cbn [a_next_line_loop]; [constructor|].
  constructor; [apply lock_next|]. intros [pkt|].
  - cbv zeta. destruct (find_sub CRLF (buf ++ pkt)); [|apply IH]. apply locked_bind; [apply lock_prepend|constructor].
  - apply locked_bind; [apply lock_prepend|constructor].
Qed.
Lemma lock_send_reply r : locked (a_send_reply (any_sink (recording ks)) r) (a_send_reply (scheduled wr) r).
Proof.
  unfold a_send_reply. destruct (byte_chunks _ _) as [chunks|]; [|constructor].
  induction chunks as [|t chunks IH]; cbn [a_send_chunks].
  - constructor; [apply lock_flush|constructor].
  - destruct (reply_build _ _ t) as [rl|e]; [|constructor]. constructor; [apply lock_ready|]. intros [].
    apply locked_bind; [|intros; exact IH]. apply lock_sync. intros s. unfold with_start_send, put_w.
    destruct (_ <? _)%nat; cbn; (split; [reflexivity|]); (split; [apply no_trace|reflexivity]).
Qed.
Lemma lock_say which : locked (a_say (any_sink (recording ks)) which) (a_say (scheduled wr) which).
Proof. apply locked_bind; [now apply lock_read|]. apply lock_send_reply. Qed.
Lemma lock_new_mail : locked (a_user (call_new_mail cfg)) (a_user (call_new_mail cfg)).
Proof. apply lock_user. aside_auto. now exists [ONewMail]. Qed.
Lemma lock_filter_from f : locked (a_user (call_filter_from cfg f)) (a_user (call_filter_from cfg f)).
Proof.
  apply lock_user. intros s. unfold call_filter_from. cbn. destruct (cf_filter_from cfg (st_cfg s) (st_user s) f) as [[[d c] u] f'] eqn:E.
  cbn. split; [reflexivity|]. split; [eexists; split; reflexivity|]. reflexivity.
Qed.
Lemma lock_filter_to m t : locked (a_user (call_filter_to cfg m t)) (a_user (call_filter_to cfg m t)).
Proof.
  apply lock_user. intros s. unfold call_filter_to. cbn. destruct (cf_filter_to cfg (st_cfg s) (st_user s) m t) as [[[[d c] u] m'] t'] eqn:E.
  cbn. split; [reflexivity|]. split; [eexists; split; reflexivity|]. reflexivity.
Qed.
Lemma lock_filter_data m : locked (a_user (call_filter_data cfg m)) (a_user (call_filter_data cfg m)).
Proof.
  apply lock_user. intros s. unfold call_filter_data. cbn. destruct (cf_filter_data cfg (st_cfg s) (st_user s) m) as [[[d c] u] m'] eqn:E.
  cbn. split; [reflexivity|]. split; [eexists; split; reflexivity|]. reflexivity.
Qed.
Lemma lock_set_mail o : locked (sync (fun s => (Ret tt, set_mail s o))) (sync (fun s => (Ret tt, set_mail s o))).
Proof. apply lock_sync. aside_auto. Qed.
Lemma lock_handler u0 m h : forall t buf data cs, locked (a_handler u0 m h t buf data cs) (a_handler u0 m h t buf data cs).
Proof.
  assert (Hp : locked (a_user (fun s : stK => (st_reader s, s))) (a_user (fun s : stV => (st_reader s, s)))).
  { apply lock_user. aside_auto. }
  induction h as [stop k IH|k IH|q IH|v c u]; intros t buf data cs; cbn [a_handler]; (apply locked_bind; [exact Hp|]); intros reader.
  - apply locked_bind; [|intros [[[items over] t'] buf']; apply IH].
    generalize (S (ds_size (DS reader t buf))) as fuel. generalize (@nil bytes) as acc. intros acc fuel. revert acc t buf.
    induction fuel as [|fuel IHf]; intros acc t buf; cbn [a_read_until]; destruct (stop acc); try constructor.
    + apply lock_stream.
    + intros [[[b|] t'] buf']; [apply IHf|constructor].
  - apply locked_bind; [|intros [[[| |] t'] buf']; [apply IH|apply IH|]].
    + apply lock_sync. intros s. unfold put_w. cbn. destruct (ds_complete (DS (st_reader s) t buf)) as [r d]. cbn.
      split; [reflexivity|]. split; [apply no_trace|reflexivity].
    + apply lock_sync. aside_auto. now exists [OHandle u0 m data cs None].
  - apply locked_bind; [|intros [[r t'] buf']; apply IH].
    apply lock_sync. intros s. unfold put_w. cbn. destruct (ds_poll (DS (st_reader s) t buf)) as [r d]. cbn.
    split; [reflexivity|]. split; [apply no_trace|]. reflexivity.
  - apply lock_sync. aside_auto. now exists [OHandle u0 m data cs (Some (v, u))].
Qed.
Lemma lock_line l : locked (a_handle_line cfg (any_sink (recording ks)) (scheduled_user cfg) l) (a_handle_line cfg (scheduled wr) (scheduled_user cfg) l).
Proof.
  unfold a_handle_line. destruct (command_parse l) as [c|n| | |]; try apply lock_say; [|constructor].
  destruct c; try apply lock_say.
  - apply locked_bind; [now apply lock_read|]. intros [m|]; [|apply lock_say].
    apply locked_bind; [apply lock_set_mail|]. intros _. destruct (mm_to m).
    + apply locked_bind; [apply lock_say|]. intros _. apply lock_set_mail.
    + apply locked_bind; [apply lock_filter_data|]. intros [[|code msg] m'].
      * apply locked_bind; [apply lock_say|]. intros _.
        apply locked_bind; [apply locked_bind; [now apply lock_read|intros [[c2 u2] d2]; apply lock_handler]|]. intros [v []]; try constructor. destruct v; [apply lock_say|apply lock_send_reply].
      * apply locked_bind; [apply lock_send_reply|]. intros _. apply lock_set_mail.
  - apply locked_bind; [now apply lock_read|]. intros [m|]; [apply lock_say|].
    apply locked_bind; [apply lock_new_mail|]. intros _. apply locked_bind; [apply lock_filter_from|]. intros [[|code msg] f']; [|apply lock_send_reply].
    apply locked_bind; [apply lock_say|]. intros _. apply lock_set_mail.
  - apply locked_bind; [now apply lock_read|]. intros [m|]; [|apply lock_say].
    apply locked_bind; [apply lock_filter_to|]. intros [[[|code msg] m'] f']; [|apply lock_send_reply].
    apply locked_bind; [apply lock_set_mail|]. intros _. apply lock_say.
Qed.
Lemma lock_future : locked (interact_future cfg (any_sink (recording ks))) (interact_future cfg (scheduled wr)).
Proof.
  apply locked_bind; [apply lock_say|]. intros _. apply locked_bind; [now apply lock_read|]. intros fuel.
  induction fuel as [|fuel IH]; cbn [a_loop]; [constructor|].
  apply locked_bind; [apply lock_next_line|]. intros [l|]; [|constructor]. apply locked_bind; [apply lock_line|]. intros _. exact IH.
Qed.
End Replay.
