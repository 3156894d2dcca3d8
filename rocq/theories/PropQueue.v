(** The queue: C42-C45, C48, C49. *)
From Coq Require Import List Arith NArith Bool Lia.
Import ListNotations.
From Verif Require Import Queue SpecQueue QueueProofs QueueLives QueueTime QueueHour QueueLive QueueExec.
Local Open Scope nat_scope.

(** ** Executions *)
Lemma reach_of_steps t0 acts s : steps (sys0 t0) acts s -> reach any_action any_state (sys0 t0) s.
Proof.
  remember (sys0 t0) as s0. induction 1; subst; [apply rc_refl; exact I|].
  eapply rc_step; [apply IHsteps; reflexivity|exact I|eassumption|exact I].
Qed.
Lemma steps_of_reach A P s0 s : reach A P s0 s -> exists acts, steps s0 acts s.
Proof.
  induction 1 as [|s act s' R [acts IH] Ha Hs Hp]; [exists []; constructor|]. exists (acts ++ [act]). econstructor; eauto.
Qed.
Lemma steps_mails t0 acts s : steps (sys0 t0) acts s -> forall id, In (AEnqueue id) acts <-> In id (sy_mails s).
Proof.
  remember (sys0 t0) as s0. induction 1 as [s|s acts s1 act s2 H IH Hs]; subst; intros id; [reflexivity|].
  rewrite in_app_iff, (IH eq_refl id). inversion Hs; subst; cbn [sy_mails].
  2: { rewrite in_app_iff. split; intros [K|[K|[]]]; auto; [injection K as ->|subst]; right; now left. }
  all: split; [intros [K|[K|[]]]; [exact K|discriminate K]|now left].
Qed.

Lemma accepts_in tr id : In id (accepts tr) <-> exists n, In (n, ESend id true) tr.
Proof.
  unfold accepts. rewrite in_flat_map. split.
  - intros ([n e] & Hi & He). cbn in He. destruct e; try (now destruct He). destruct ok; [|now destruct He].
    destruct He as [->|[]]. now exists n.
  - intros (n & H). exists (n, ESend id true). split; [exact H|now left].
Qed.
Lemma step_accepts s act s' : sstep s act s' -> accepted (sy_w s) = accepts (sy_trace s) -> accepted (sy_w s') = accepts (sy_trace s').
Proof.
  intros H E. inversion H; subst; cbn [sy_w sy_trace accepted set_stor] in *; auto.
  unfold accepts. rewrite flat_map_app. fold (accepts tr). rewrite <- E. cbn.
  match goal with X : pstep _ _ _ _ _ _ _ |- _ => inversion X; subst; cbn; rewrite ?app_nil_r; reflexivity end.
Qed.
Lemma reach_accepts A P t0 s : reach A P (sys0 t0) s -> accepted (sy_w s) = accepts (sy_trace s).
Proof. induction 1; [reflexivity|eapply step_accepts; eauto]. Qed.

(** ** C42: the queue never loses a mail *)
Theorem C42_no_mail_lost : forall t0 acts s id, steps (sys0 t0) acts s -> In (AEnqueue id) acts ->
  lookup id (stor (sy_w s)) <> None \/ exists n, In (n, ESend id true) (sy_trace s).
Proof.
  intros t0 acts s id H Hin. pose proof (reach_of_steps _ _ _ H) as R. rewrite (steps_mails _ _ _ H) in Hin.
  destruct (iv_kept _ (reach_inv _ _ _ _ R) id Hin) as [K|K]; [now left|right].
  rewrite (reach_accepts _ _ _ _ R) in K. now apply accepts_in.
Qed.
(** Nothing is stored or sent that was not enqueued. *)
Theorem C42_no_mail_invented : forall t0 acts s id, steps (sys0 t0) acts s ->
  lookup id (stor (sy_w s)) <> None \/ (exists n, In (n, ESend id true) (sy_trace s)) -> In (AEnqueue id) acts.
Proof.
  intros t0 acts s id H K. pose proof (reach_of_steps _ _ _ H) as R. pose proof (reach_inv _ _ _ _ R) as I.
  apply (steps_mails _ _ _ H). destruct K as [K|K]; [now apply (iv_stored _ I)|].
  apply (iv_accepted _ I). rewrite (reach_accepts _ _ _ _ R). now apply accepts_in.
Qed.

(** ** C43: a mail is removed only after the transport accepted it *)
(** What every task does is (a beginning of) one of five scripts. *)
Theorem C43_protocol : forall t0 acts s n, steps (sys0 t0) acts s ->
  exists w, life w /\ prefix (history n (sy_trace s)) w.
Proof. intros t0 acts s n H. apply (iv_lives _ (reach_inv _ _ _ _ (reach_of_steps _ _ _ H))). Qed.

Lemma scan_found_no e w : scan_found w -> In e w -> match e with EFound _ | ESpawn _ => True | _ => False end.
Proof.
  intros H. induction H as [|id st tok w H IH]; [intros []|]. rewrite in_app_iff. intros [K|[<-|[<-|[]]]]; [now apply IH|exact I|exact I].
Qed.
Lemma scan_no e w : scan w -> In e w -> match e with EFound _ | ESpawn _ => True | _ => False end.
Proof.
  intros [ids w' H] K. apply in_app_or in K. destruct K as [K|K]; [|eapply scan_found_no; eauto].
  apply in_map_iff in K. destruct K as (i & <- & _). exact I.
Qed.
Ltac peel E := repeat match type of E with
  | [] = ?x ++ _ :: _ => now destruct x
  | _ :: _ = ?x ++ _ :: _ => destruct x as [|? x]; cbn in E; [injection E as -> E || injection E as E; try discriminate|injection E as <- E]
  end.
Lemma life_done w h id ok r : life w -> w = h ++ EDone id ok :: r ->
  exists h0 tok, h = h0 ++ [EStart id (Some tok); EGet id true; ESend id true].
Proof.
  intros H E.
  assert (A : forall w h, attempt id w \/ (exists j, attempt j w) -> w = h ++ EDone id ok :: r ->
    exists h0 tok, h = h0 ++ [EStart id (Some tok); EGet id true; ESend id true]).
  { clear. intros w h K E. assert (K' : exists j, attempt j w) by (destruct K; eauto). clear K. destruct K' as [j K].
    destruct K; repeat (destruct h as [|? h]; cbn in E; [discriminate E || injection E; intros; subst|injection E as <- E]);
      try (now destruct h); try discriminate.
    exists [], tok. reflexivity. }
  destruct H.
  - now destruct h.
  - apply (A w h); eauto.
  - destruct h as [|? [|]]; discriminate.
  - destruct h as [|x h]; [discriminate|]. injection E as <- E. destruct (A w h) as (h0 & tok & ->); eauto.
    now exists (ERecover id0 true :: h0), tok.
  - assert (K : In (EDone id ok) w) by (rewrite E; apply in_or_app; right; now left).
    now apply (scan_no _ _ H) in K.
Qed.
Lemma life_refused w h id r : life w -> w = h ++ ESend id false :: r ->
  r = [ECancel id true; ESpawn (CSend (Qm id))] \/ r = [ECancel id false].
Proof.
  intros H E.
  assert (A : forall w h, (exists j, attempt j w) -> w = h ++ ESend id false :: r ->
    r = [ECancel id true; ESpawn (CSend (Qm id))] \/ r = [ECancel id false]).
  { clear. intros w h [j K] E.
    destruct K; repeat (destruct h as [|? h]; cbn in E; [discriminate E || injection E; intros; subst|injection E as <- E]);
      try (now destruct h); try discriminate; auto. }
  destruct H.
  - now destruct h.
  - apply (A w h); eauto.
  - destruct h as [|? [|]]; discriminate.
  - destruct h as [|x h]; [discriminate|]. injection E as <- E. apply (A w h); eauto.
  - assert (K : In (ESend id false) w) by (rewrite E; apply in_or_app; right; now left).
    now apply (scan_no _ _ H) in K.
Qed.

Theorem C43_done_after_accept : forall t0 acts s pre n id ok post, steps (sys0 t0) acts s ->
  sy_trace s = pre ++ (n, EDone id ok) :: post ->
  exists h tok, history n pre = h ++ [EStart id (Some tok); EGet id true; ESend id true].
Proof.
  intros t0 acts s pre n id ok post H E. destruct (C43_protocol _ _ _ n H) as (w & L & r & Ew).
  rewrite E, history_app in Ew. change ((n, EDone id ok) :: post) with ([(n, EDone id ok)] ++ post) in Ew.
  rewrite history_app, history_one, Nat.eqb_refl in Ew. cbn [visible andb app] in Ew.
  rewrite <- app_assoc in Ew. cbn [app] in Ew. destruct (life_done _ _ _ _ _ L Ew) as (h0 & tok & K). eauto.
Qed.
Lemma step_removes w p lab ev p' cs w' id : pstep w p lab ev p' cs w' ->
  lookup id (stor w) <> None -> lookup id (stor w') = None -> exists ok, ev = EDone id ok.
Proof.
  intros H E1 E2.
  assert (Hput : forall j x, lookup id (put j x (stor w)) <> None).
  { intros j x. rewrite lookup_put. destruct (j =? id); [discriminate|exact E1]. }
  assert (Hdel : forall j, lookup id (del j (stor w)) = None -> j = id).
  { intros j. rewrite lookup_del. destruct (Nat.eqb_spec j id); [auto|contradiction]. }
  inversion H; subst; clear H; cbn [stor set_stor] in E2; try contradiction; try (now apply Hput in E2).
  - match goal with X : either _ _ _ |- _ => destruct X as [->| ->]; [contradiction|] end.
    destruct (lookup id0 (stor w)) as [[|]|] eqn:El; try contradiction. now apply Hput in E2.
  - apply Hdel in E2. subst. eauto.
  - match goal with X : either _ _ _ |- _ => destruct X as [->| ->]; [contradiction|] end.
    destruct (lookup (im_id i) (stor w)) as [[|t]|]; try contradiction. destruct (t =? im_tok i); [|contradiction].
    apply Hdel in E2. subst. eauto.
  - match goal with X : either _ _ _ |- _ => destruct X as [->| ->]; [contradiction|] end.
    destruct (lookup (im_id i) (stor w)) as [[|t]|]; try contradiction. destruct (t =? im_tok i); [|contradiction].
    now apply Hput in E2.
  - match goal with X : either _ _ _ |- _ => destruct X as [->| ->]; [contradiction|] end.
    destruct (lookup (fm_id f) (stor w)) as [[|t]|]; try contradiction. destruct (t =? fm_tok f); [|contradiction].
    now apply Hput in E2.
Qed.
(** A mail leaves the storage only in a [send_done], right after the transport
    accepted it in the same task. *)
Theorem C43_removed_after_accept : forall t0 acts s act s' id, steps (sys0 t0) acts s -> sstep s act s' ->
  lookup id (stor (sy_w s)) <> None -> lookup id (stor (sy_w s')) = None ->
  exists n ok h tok, sy_trace s' = sy_trace s ++ [(n, EDone id ok)]
    /\ history n (sy_trace s) = h ++ [EStart id (Some tok); EGet id true; ESend id true].
Proof.
  intros t0 acts s act s' id H Hs E1 E2.
  assert (H' : steps (sys0 t0) (acts ++ [act]) s') by (econstructor; eauto).
  assert (K : exists n ok, sy_trace s' = sy_trace s ++ [(n, EDone id ok)]).
  { inversion Hs; subst; cbn [sy_w sy_trace stor set_stor] in *; try contradiction.
    - match goal with X : pstep _ _ _ _ _ _ _ |- _ => destruct (step_removes _ _ _ _ _ _ _ id X E1 E2) as [ok ->] end. eauto.
    - exfalso. rewrite lookup_put in E2. destruct (_ =? _); [discriminate|contradiction]. }
  destruct K as (n & ok & Et). destruct (C43_done_after_accept _ _ _ (sy_trace s) n id ok [] H' Et) as (h & tok & Eh).
  exists n, ok, h, tok. auto.
Qed.
(** After a refusal the task puts the mail back in the queue and, if that
    succeeds, starts another attempt; it does nothing else. *)
Theorem C43_refused_goes_back : forall t0 acts s pre n id post, steps (sys0 t0) acts s ->
  sy_trace s = pre ++ (n, ESend id false) :: post ->
  prefix (history n post) [ECancel id true; ESpawn (CSend (Qm id))] \/ prefix (history n post) [ECancel id false].
Proof.
  intros t0 acts s pre n id post H E. destruct (C43_protocol _ _ _ n H) as (w & L & r & Ew).
  rewrite E, history_app in Ew. change ((n, ESend id false) :: post) with ([(n, ESend id false)] ++ post) in Ew.
  rewrite history_app, history_one, Nat.eqb_refl in Ew. cbn [visible andb app] in Ew.
  rewrite <- app_assoc in Ew. cbn [app] in Ew.
  destruct (life_refused _ _ _ _ L Ew) as [K|K]; [left|right]; exists r; auto.
Qed.

(** When the task has ended, it has done all of it. *)
Theorem C43_refused_ends : forall t0 acts s pre n id post, steps (sys0 t0) acts s ->
  sy_trace s = pre ++ (n, ESend id false) :: post -> ended n s ->
  history n post = [ECancel id true; ESpawn (CSend (Qm id))] \/ history n post = [ECancel id false].
Proof.
  intros t0 acts s pre n id post H E (t & ok & Ht & Et & Ep). pose proof (reach_inv _ _ _ _ (reach_of_steps _ _ _ H)) as I.
  pose proof (iv_points _ I) as P. rewrite Forall_forall in P. specialize (P t Ht). rewrite Et, Ep in P. inversion P as [h ok' L| | | | | | | | | | | | | | | | | |]; subst.
  assert (Ew : history (t_id t) (sy_trace s) = history (t_id t) pre ++ ESend id false :: history (t_id t) post).
  { rewrite E. change ((t_id t, ESend id false) :: post) with ([(t_id t, ESend id false)] ++ post).
    rewrite !history_app, history_one, Nat.eqb_refl. reflexivity. }
  apply (life_refused _ _ _ _ L Ew).
Qed.
(** Each task does what it was started for, from its start to its end: an attempt
    at the mail it was given; recovery of the mail it was given and an attempt at
    it; the scan. *)
Theorem C43_life_of_a_task : forall t0 acts s act s1 c acts' s2, steps (sys0 t0) acts s -> sstep s act s1 -> starts s act s1 c ->
  steps s1 acts' s2 ->
  (exists w, life_of c w /\ prefix (history (sy_next s) (sy_trace s2)) w)
  /\ (ended (sy_next s) s2 -> life_of c (history (sy_next s) (sy_trace s2))).
Proof.
  intros t0 acts s act s1 c acts' s2 H Hs B H'. pose proof (reach_inv _ _ _ _ (reach_of_steps _ _ _ H)) as I.
  destruct (starts_told _ _ _ _ I Hs B) as [Hn T]. destruct (steps_told _ _ _ _ _ H' (inv_step _ _ _ I Hs) Hn T) as (_ & _ & T1 & T2).
  split; [exact T2|]. intros (t & ok & Ht & Et & Ep). specialize (T1 t Ht Et). rewrite Ep in T1. eapply stage_ended; eauto.
Qed.

(** ** C44: no two concurrent deliveries of one mail *)
Theorem C44_one_delivery_at_a_time : forall D L t0 s t1 t2 id, (D + L <= 3600)%N ->
  reach any_action (quick D L) (sys0 t0) s ->
  In t1 (sy_tasks s) -> In t2 (sy_tasks s) -> sending id t1 -> sending id t2 -> t1 = t2.
Proof.
  intros D L t0 s t1 t2 id HDL R. eapply one_sender. eapply reach_current; eauto.
Qed.

(** ** C49: exactly once without crashes *)
Theorem C49_at_most_once : forall D L t0 s, (D + L <= 3600)%N ->
  reach no_failure (quick D L) (sys0 t0) s -> NoDup (accepts (sy_trace s)).
Proof.
  intros D L t0 s HDL R. rewrite <- (reach_accepts _ _ _ _ R). eapply on_nodup. eapply reach_once; eauto.
Qed.

(** ** C45: mails known at startup stay covered *)
Theorem C45_deliverable : forall t0 acts s1 inst s2 s id, steps (sys0 t0) acts s1 -> sstep s1 (ABoot inst) s2 ->
  lookup id (stor (sy_w s1)) <> None -> reach calm any_state s2 s ->
  exists s', reach calm any_state s s' /\ lookup id (stor (sy_w s')) = None
    /\ exists n, In (n, ESend id true) (sy_trace s').
Proof.
  intros t0 acts s1 inst s2 s id H B E R.
  assert (R2 : reach any_action any_state (sys0 t0) s2) by (eapply reach_of_steps; econstructor; eauto).
  pose proof (reach_inv _ _ _ _ R2) as I2.
  assert (C : covered id s2).
  { inversion B; subst. cbn [sy_w] in E. split.
    - cbn [sy_mails]. apply (iv_stored _ I2). exact E.
    - right. cbn [sy_w sy_tasks]. eexists. split; [apply in_or_app; right; now left|constructor]. }
  pose proof (calmly_covered _ _ _ I2 C R) as C'. destruct (covered_removable _ _ C') as (s' & R' & El).
  exists s'. split; [exact R'|]. split; [exact El|].
  assert (R3 : reach any_action any_state (sys0 t0) s').
  { clear - R2 R R'. assert (K : forall a b, reach any_action any_state (sys0 t0) a -> reach calm any_state a b -> reach any_action any_state (sys0 t0) b).
    { intros a b Ha Hb. induction Hb as [|x act y Hx IH Hc Hs Hy]; [exact Ha|]. eapply rc_step; eauto; exact I. }
    eapply K; [|exact R']. eapply K; eauto. }
  destruct (iv_kept _ (reach_inv _ _ _ _ R3) id) as [K|K].
  - eapply calmly_mails; [exact R'|]. apply C'.
  - contradiction.
  - rewrite (reach_accepts _ _ _ _ R3) in K. now apply accepts_in.
Qed.

(** When no task is left, nothing more happens to the mails, however long one waits:
    a mail enqueued after the scan, or left in flight by a failure, waits for a restart. *)
Theorem C45_late_mail_waits : forall s s', reach calm any_state s s' ->
  (forall t, In t (sy_tasks s) -> exists ok, t_prog t = PEnd ok) ->
  sy_trace s' = sy_trace s
  /\ forall id, lookup id (stor (sy_w s)) <> None -> lookup id (stor (sy_w s')) = lookup id (stor (sy_w s)).
Proof.
  intros s s' R H.
  assert (K : sy_tasks s' = sy_tasks s /\ sy_trace s' = sy_trace s
    /\ forall id, lookup id (stor (sy_w s)) <> None -> lookup id (stor (sy_w s')) = lookup id (stor (sy_w s))).
  { induction R as [|x act y R IH Ha Hs Hp]; [auto|]. destruct IH as (E1 & E2 & E3).
    inversion Hs; subst; cbn [sy_w sy_tasks sy_trace stor set_stor] in *; try contradiction; auto.
    - exfalso. destruct (H (Task n inst p)) as [ok Eo]; [rewrite <- E1; apply in_or_app; right; now left|].
      cbn in Eo. subst. match goal with X : pstep _ _ _ _ _ _ _ |- _ => inversion X end.
    - split; [exact E1|]. split; [exact E2|]. intros j Hj. rewrite <- (E3 j Hj). apply put_other. intros ->.
      rewrite <- (E3 _ Hj) in Hj. contradiction. }
  tauto.
Qed.

(** ** C48: a refused mail is retried at once, without limit *)
Lemma do_op_trace s t ev p' cs w' : In t (sy_tasks s) -> pstep (sy_w s) (t_prog t) Normal ev p' cs w' ->
  exists s', sstep s (AStep Normal) s' /\ sy_w s' = w' /\ has s' p' /\ (forall c, In c cs -> has s' (body c))
    /\ sy_trace s' = sy_trace s ++ [(t_id t, ev)].
Proof.
  intros Ht H. apply in_split in Ht. destruct Ht as (a & b & E). destruct s as [w ts nx ms tr], t as [n inst p]. cbn in *. subst ts.
  eexists. split; [apply ss_task; exact H|]. cbn. split; [reflexivity|]. split.
  - eexists. split; [apply in_or_app; right; left; reflexivity|reflexivity].
  - split; [|reflexivity]. intros c Hc.
    assert (K : exists k, In (k, c) (number nx cs)).
    { clear - Hc. revert nx. induction cs as [|d cs IH]; intros nx; [destruct Hc|]. destruct Hc as [->|Hc]; cbn; [eauto|].
      destruct (IH Hc (S nx)) as [k Hk]. eauto. }
    destruct K as [k Hk]. exists (Task k inst (body c)). split; [|reflexivity].
    apply in_or_app. right. right. apply in_or_app. right. unfold new_tasks. apply in_map_iff. exists (k, c). auto.
Qed.
Lemma reach_more A s0 s s' : reach A any_state s0 s -> A (AStep Normal) -> sstep s (AStep Normal) s' -> reach A any_state s0 s'.
Proof. intros R Ha H. eapply rc_step; eauto. exact I. Qed.
Theorem C48_retried_without_limit : forall id n s, waiting id s ->
  exists s', reach only_steps any_state s s' /\ waiting id s' /\ now (sy_w s') = now (sy_w s)
    /\ refusals id (sy_trace s') = n + refusals id (sy_trace s).
Proof.
  intros id n. induction n as [|n IH]; intros s [Hs El]; [exists s; split; [apply rc_refl; exact I|]; repeat split; auto|].
  destruct (IH s (conj Hs El)) as (s0 & R0 & (Hs0 & El0) & En & Er). clear IH Hs El.
  destruct Hs0 as (t & Ht & Ep).
  assert (S1 : pstep (sy_w s0) (t_prog t) Normal (EStart id (Some (fresh (sy_w s0)))) (after_start (Some (Im id (fresh (sy_w s0)) (now (sy_w s0))))) []
     (World (now (sy_w s0)) (put id (Inflight (fresh (sy_w s0))) (stor (sy_w s0))) (S (fresh (sy_w s0))) (accepted (sy_w s0)))).
  { rewrite Ep. now apply ps_start. }
  destruct (do_op_trace _ _ _ _ _ _ Ht S1) as (s1 & H1 & W1 & (t1 & Ht1 & Ep1) & _ & T1). cbn [after_start] in Ep1.
  set (i := Im id (fresh (sy_w s0)) (now (sy_w s0))) in *.
  assert (S2 : pstep (sy_w s1) (t_prog t1) Normal (EGet id true) (after_get i (Some id)) [] (sy_w s1)).
  { rewrite Ep1. apply (ps_get (sy_w s1) i). }
  destruct (do_op_trace _ _ _ _ _ _ Ht1 S2) as (s2 & H2 & W2 & (t2 & Ht2 & Ep2) & _ & T2). cbn [after_get] in Ep2.
  assert (S3 : pstep (sy_w s2) (t_prog t2) Normal (ESend id false) (after_transport i false) [] (sy_w s2)).
  { rewrite Ep2. apply ps_send_err. }
  destruct (do_op_trace _ _ _ _ _ _ Ht2 S3) as (s3 & H3 & W3 & (t3 & Ht3 & Ep3) & _ & T3). cbn [after_transport] in Ep3.
  assert (El3 : lookup (im_id i) (stor (sy_w s3)) = Some (Inflight (im_tok i))).
  { rewrite W3, W2, W1. cbn [stor]. rewrite lookup_put. cbn. now rewrite Nat.eqb_refl. }
  assert (S4 : pstep (sy_w s3) (t_prog t3) Normal (ECancel id true) (after_cancel (Some (Qm id))) []
     (set_stor (sy_w s3) (put id Queued (stor (sy_w s3))))).
  { rewrite Ep3. apply (ps_cancel (sy_w s3) i); exact El3. }
  destruct (do_op_trace _ _ _ _ _ _ Ht3 S4) as (s4 & H4 & W4 & (t4 & Ht4 & Ep4) & _ & T4). cbn [after_cancel] in Ep4.
  assert (S5 : pstep (sy_w s4) (t_prog t4) Normal (ESpawn (CSend (Qm id))) (PEnd true) [CSend (Qm id)] (sy_w s4)).
  { rewrite Ep4. apply ps_spawn. }
  destruct (do_op_trace _ _ _ _ _ _ Ht4 S5) as (s5 & H5 & W5 & _ & Hc & T5).
  exists s5. split.
  { repeat (eapply reach_more; [|reflexivity|eassumption]). exact R0. }
  split; [split; [apply (Hc (CSend (Qm id))); now left|rewrite W5, W4; cbn [stor set_stor]; rewrite lookup_put; now rewrite Nat.eqb_refl]|].
  split; [rewrite W5, W4; cbn [now set_stor]; rewrite W3, W2, W1; exact En|].
  rewrite T5, T4, T3, T2, T1. unfold refusals in *. rewrite !filter_app, !app_length. cbn. rewrite Nat.eqb_refl. cbn. lia.
Qed.

(** ** C60: mails in flight are left alone for an hour *)
(** An instance puts back mails found in flight only an hour after it was started. *)
Theorem C60_recovery_waits_an_hour : forall t0 acts s inst s1 acts1 s2 act s3 n id ok,
  steps (sys0 t0) acts s -> (forall t, In t (sy_tasks s) -> t_inst t <> inst) -> sstep s (ABoot inst) s1 ->
  steps s1 acts1 s2 -> sstep s2 act s3 -> works_for inst n s2 -> does s2 s3 n (ERecover id ok) ->
  (now (sy_w s) + 3600 <= now (sy_w s2))%N.
Proof.
  intros t0 acts s inst s1 acts1 s2 act s3 n id ok H Hn B H1 Hs (t & Ht & Et & Ei) D.
  pose proof (reach_inv _ _ _ _ (reach_of_steps _ _ _ H)) as I.
  assert (H0 : hour (now (sy_w s)) inst s1).
  { inversion B; subst. cbn [sy_tasks] in Hn. unfold hour. cbn [sy_w sy_tasks]. split; [lia|]. intros x Hx Ex. apply in_app_or in Hx.
    destruct Hx as [Hx|[<-|[]]]; [now elim (Hn x)|constructor]. }
  destruct (steps_hour _ _ _ _ _ H1 H0) as [HT HL].
  assert (I2 : inv s2).
  { clear - I B H1. assert (I1 : inv s1) by (eapply inv_step; eauto). clear I B. induction H1 as [x|x l y c z Hl IH Hs]; [exact I1|]. exact (inv_step _ _ _ (IH I1) Hs). }
  unfold does in D. destruct Hs as [w a m ins p b nx ms tr lab ev p' cs w' P| | | |]; cbn [sy_trace sy_tasks sy_w] in *;
    try (apply (f_equal (@length _)) in D; rewrite app_length in D; cbn in D; lia).
  apply app_inv_head in D. injection D as -> ->.
  assert (t = Task n ins p) as ->.
  { eapply same_id_same_task; [exact I2|exact Ht|apply in_elt|exact Et]. }
  cbn [t_inst] in Ei. subst ins. specialize (HL _ Ht eq_refl). cbn [t_prog] in HL.
  exact (proj2 (proj2 (late_step _ _ _ _ _ _ _ _ HT HL P))).
Qed.
Lemma in_history n e tr : In e (history n tr) -> In (n, e) tr.
Proof.
  unfold history. intros H. apply in_map_iff in H. destruct H as ([m x] & E & H). apply filter_In in H. destruct H as [H K]. cbn in *.
  apply andb_true_iff in K. destruct K as [K _]. apply Nat.eqb_eq in K. now subst.
Qed.
(** Nothing but the task that took a mail ends its being in flight, unless it is such a recovery. *)
Theorem C60_in_flight_undisturbed : forall t0 acts s act s' id tok, steps (sys0 t0) acts s -> sstep s act s' ->
  lookup id (stor (sy_w s)) = Some (Inflight tok) -> lookup id (stor (sy_w s')) <> Some (Inflight tok) ->
  exists n ok, (In (n, EStart id (Some tok)) (sy_trace s) /\ (does s s' n (EDone id ok) \/ does s s' n (ECancel id ok)))
    \/ does s s' n (ERecover id ok).
Proof.
  intros t0 acts s act s' id tok H Hs E E'. pose proof (reach_inv _ _ _ _ (reach_of_steps _ _ _ H)) as I.
  destruct Hs as [w a n ins p b nx ms tr lab ev p' cs w' P|w ts nx ms tr j N1 N2| | |]; unfold does; cbn [sy_trace sy_tasks sy_w] in *; try contradiction.
  2: { cbn [stor set_stor] in E'. rewrite put_other in E' by congruence. contradiction. }
  pose proof (iv_points _ I) as F. cbn [sy_tasks sy_mails sy_w sy_trace] in F. rewrite Forall_forall in F. specialize (F _ (in_elt _ _ _)). cbn [t_id t_prog] in F.
  destruct (step_stor _ _ _ _ _ _ _ _ _ _ F P id tok E) as [K|[(i & Hh & Ei & Ek & _)|(f & -> & Ef & Ek)]]; [contradiction| |].
  - assert (X : forall x, In (EStart x (Some (im_tok i))) (history n tr) -> im_id i = x -> In (n, EStart id (Some tok)) tr).
    { intros x Hx <-. apply in_history. rewrite <- Ei, <- Ek. exact Hx. }
    inversion F; subst; try contradiction; cbn in Hh; try subst i; try (apply after_transport_inj in Hh; subst i);
      cbn [im_id im_tok] in *; cbn in P; inversion P; subst; cbn [stor set_stor im_id im_tok] in *; try contradiction;
      try (exists n; eexists; left; split; [|solve [left; reflexivity|right; reflexivity]];
           apply (X id0); [match goal with Q : _ = history n tr |- _ => rewrite <- Q end; apply in_or_app; right; now left|reflexivity]).
  - inversion P; subst; cbn [stor set_stor] in *; try contradiction; exists n; eexists; right; reflexivity.
Qed.

(** ** Executions meeting the hypotheses *)
(** Boolean versions of the timing assumptions. *)
Definition since_of (p : prog) : option N :=
  match p with
  | PGetMail i _ | PSendDone i _ | PSendCancel i _ => Some (im_since i)
  | PTransport _ k => match k true with PSendDone i _ => Some (im_since i) | _ => None end
  | _ => None
  end.
Definition startup_of (p : prog) : option N :=
  match p with
  | PFindNext l k => match k l (Item (Fm 0 0)) with PSpawn (CFound st _) _ => Some st | _ => None end
  | _ => None
  end.
Definition quickb (D L : N) (s : sys) : bool :=
  forallb (fun t => match since_of (t_prog t) with Some x => (now (sy_w s) <? x + D)%N | None => true end
                    && match startup_of (t_prog t) with Some x => (now (sy_w s) <=? x + L)%N | None => true end) (sy_tasks s).
Lemma quickb_sound D L s : quickb D L s = true -> quick D L s.
Proof.
  unfold quickb. rewrite forallb_forall. intros H. split; intros t x Ht K; specialize (H t Ht); apply andb_true_iff in H; destruct H as [H1 H2].
  - assert (E : since_of (t_prog t) = Some x).
    { unfold attempting in K. destruct (t_prog t); try contradiction; cbn; try congruence. destruct K as (i & -> & <-). reflexivity. }
    rewrite E in H1. now apply N.ltb_lt.
  - assert (E : startup_of (t_prog t) = Some x) by (destruct K as (l & ->); reflexivity).
    rewrite E in H2. now apply N.leb_le.
Qed.
Definition okA (_ : action) : bool := true.
Definition okS (_ : sys) : bool := true.
Definition no_failureb (a : action) : bool := match a with AStep Failure | ACrash _ => false | _ => true end.
Definition calmb (a : action) : bool := match a with AStep Failure | ACrash _ | ABoot _ => false | _ => true end.
Lemma no_failureb_sound a : no_failureb a = true -> no_failure a.
Proof. destruct a as [[]| | | |]; cbn; try discriminate; auto. Qed.
Lemma calmb_sound a : calmb a = true -> calm a.
Proof. destruct a as [[]| | | |]; cbn; try discriminate; auto. Qed.
Definition sends (id : nat) (t : task) : bool := match t_prog t with PTransport i _ => i =? id | _ => false end.
Lemma sends_sound id t : sends id t = true -> sending id t.
Proof. unfold sends, sending. destruct (t_prog t); try discriminate. rewrite Nat.eqb_eq. intros ->. eauto. Qed.
Definition after (s : sys) (ms : list move) : sys := match execs okA okS s ms with Some s' => s' | None => s end.
Definition ends (s : sys) : bool := forallb (fun t => match t_prog t with PEnd _ => true | _ => false end) (sy_tasks s).

(** One mail: the scan of task 0 starts task 1, refused; task 2 delivers. *)
Definition m_start : list move := [MStep 0 Yes; MStep 0 Yes; MStep 0 Yes; MStep 0 (Pick 7); MStep 0 Yes; MStep 0 Yes].
Definition m_scan_end : list move := [MStep 0 No; MStep 0 Yes; MStep 0 Yes; MStep 0 No].
Definition m_refused (n : nat) : list move := [MStep n Yes; MStep n Yes; MStep n No; MStep n Yes; MStep n Yes].
Definition m_delivered (n : nat) : list move := [MStep n Yes; MStep n Yes; MStep n Yes; MStep n Yes].
Definition ordinary : list move := [MEnqueue 7; MBoot 0] ++ m_start ++ m_scan_end ++ m_refused 1 ++ [MTick 5] ++ m_delivered 2.

Lemma run_case {A} (f : sys -> A) aok sok s0 ms v : option_map f (execs aok sok s0 ms) = Some v ->
  exists s, execs aok sok s0 ms = Some s /\ f s = v.
Proof. destruct (execs aok sok s0 ms) as [s|]; [|discriminate]. intros [= E]. now exists s. Qed.
Ltac by_run f := match goal with |- exists s, execs ?a ?b ?c ?d = Some s /\ _ =>
  destruct (run_case f a b c d _ ltac:(vm_compute; reflexivity)) as (s & ? & ?); exists s; split; [assumption|] end.
Lemma exec_steps (A : action -> Prop) (P : sys -> Prop) aok sok t0 ms s : (forall a, aok a = true -> A a) -> (forall s, sok s = true -> P s) -> P (sys0 t0) ->
  execs aok sok (sys0 t0) ms = Some s -> reach A P (sys0 t0) s.
Proof. intros HA HP H0 E. eapply execs_sound; eauto. now apply rc_refl. Qed.

Example C42_example : exists acts s, steps (sys0 0) acts s /\ In (AEnqueue 7) acts /\ In (AEnqueue 8) acts
  /\ In (ACrash 0) acts /\ lookup 8 (stor (sy_w s)) = Some Queued /\ lookup 7 (stor (sy_w s)) = None.
Proof.
  assert (E : exists s, execs okA okS (sys0 0) (ordinary ++ [MEnqueue 8; MCrash 0]) = Some s
    /\ lookup 8 (stor (sy_w s)) = Some Queued /\ lookup 7 (stor (sy_w s)) = None /\ sy_mails s = [7; 8] /\ sy_tasks s = []).
  { by_run (fun s => (lookup 8 (stor (sy_w s)), lookup 7 (stor (sy_w s)), sy_mails s, length (sy_tasks s))).
    match goal with X : (_, _, _, _) = _ |- _ => injection X as E1 E2 E3 E4 end. apply length_zero_iff_nil in E4. auto. }
  destruct E as (s & E & E1 & E2 & E3 & _).
  (* the actions of an execution *)
  assert (K : forall ms s0 s', execs okA okS s0 ms = Some s' -> forall a0, steps (sys0 0) a0 s0 ->
    exists acts, steps (sys0 0) (a0 ++ acts) s' /\ forall i, In (MCrash i) ms -> In (ACrash i) acts).
  { clear. induction ms as [|m ms IH]; intros s0 s'; cbn; [intros [= <-]; exists []; rewrite app_nil_r; split; [auto|intros i []]|].
    destruct (sexec s0 m) as [[act s1]|] eqn:Ex; [|discriminate]. cbn. intros E a0 H.
    destruct (IH _ _ E (a0 ++ [act])) as (acts & Hs & Hc); [econstructor; [exact H|eapply sexec_sound; eauto]|].
    exists (act :: acts). rewrite <- app_assoc in Hs. split; [exact Hs|]. intros i [->|Hi]; [|right; auto].
    cbn in Ex. injection Ex as <- _. now left. }
  destruct (K _ _ _ E [] (st_nil _)) as (acts & H & Hc). cbn [app] in H. exists acts, s. split; [exact H|].
  rewrite !(steps_mails _ _ _ H), E3. split; [now left|]. split; [right; now left|]. split; [apply Hc; vm_compute; intuition|]. auto.
Qed.
(** Both kinds of attempt occur in one execution. *)
Example C43_example : exists s, reach any_action any_state (sys0 0) s
  /\ history 1 (sy_trace s) = [EStart 7 (Some 0); EGet 7 true; ESend 7 false; ECancel 7 true; ESpawn (CSend (Qm 7))]
  /\ history 2 (sy_trace s) = [EStart 7 (Some 1); EGet 7 true; ESend 7 true; EDone 7 true].
Proof.
  assert (E : exists s, execs okA okS (sys0 0) ordinary = Some s
    /\ history 1 (sy_trace s) = [EStart 7 (Some 0); EGet 7 true; ESend 7 false; ECancel 7 true; ESpawn (CSend (Qm 7))]
    /\ history 2 (sy_trace s) = [EStart 7 (Some 1); EGet 7 true; ESend 7 true; EDone 7 true]).
  { by_run (fun s => (history 1 (sy_trace s), history 2 (sy_trace s))). match goal with X : (_, _) = _ |- _ => injection X as E1 E2 end. auto. }
  destruct E as (s & E & K). exists s. split; [|exact K]. refine (exec_steps _ _ okA okS _ _ _ _ _ _ E); constructor.
Qed.
(** A task is started for the mail 7, is refused, and has ended. *)
Example C43_life_example : exists acts s act s1 acts' s2, steps (sys0 0) acts s /\ sstep s act s1 /\ starts s act s1 (CSend (Qm 7))
  /\ steps s1 acts' s2 /\ ended (sy_next s) s2
  /\ history (sy_next s) (sy_trace s2) = [EStart 7 (Some 0); EGet 7 true; ESend 7 false; ECancel 7 true; ESpawn (CSend (Qm 7))].
Proof.
  set (m1 := [MEnqueue 7; MBoot 0; MStep 0 Yes; MStep 0 Yes; MStep 0 Yes; MStep 0 (Pick 7)]).
  set (m2 := [MStep 0 Yes] ++ m_scan_end ++ m_refused 1).
  assert (E : exists s, execs okA okS (sys0 0) m1 = Some s /\ exists s1, sexec s (MStep 0 Yes) = Some (AStep Normal, s1)
    /\ sy_trace s1 = sy_trace s ++ [(0, ESpawn (CSend (Qm 7)))] /\ exists s2, execs okA okS s1 m2 = Some s2 /\ ended (sy_next s) s2
    /\ history (sy_next s) (sy_trace s2) = [EStart 7 (Some 0); EGet 7 true; ESend 7 false; ECancel 7 true; ESpawn (CSend (Qm 7))]).
  { eexists. split; [vm_compute; reflexivity|]. eexists. split; [vm_compute; reflexivity|]. split; [reflexivity|].
    eexists. split; [vm_compute; reflexivity|]. split; [|vm_compute; reflexivity].
    eexists _, _. split; [right; left; reflexivity|]. split; reflexivity. }
  destruct E as (s & E1 & s1 & E2 & Et & s2 & E3 & En & Eh).
  destruct (steps_of_reach any_action any_state (sys0 0) s) as [acts H]; [refine (exec_steps _ _ okA okS _ _ _ _ _ _ E1); constructor|].
  destruct (steps_of_reach any_action any_state s1 s2) as [acts' H']; [eapply (execs_sound _ _ okA okS); [constructor|constructor|apply rc_refl; constructor|exact E3]|].
  exists acts, s, (AStep Normal), s1, acts', s2. split; [exact H|]. split; [eapply sexec_sound; eauto|]. split; [left; now exists 0|]. auto.
Qed.
Example C44_example : exists s t, reach any_action (quick 60 100) (sys0 0) s /\ In t (sy_tasks s) /\ sending 7 t.
Proof.
  assert (E : exists s, execs okA (quickb 60 100) (sys0 0)
      ([MEnqueue 7; MBoot 0] ++ m_start ++ m_scan_end ++ m_refused 1 ++ [MTick 5; MStep 2 Yes; MStep 2 Yes; MTick 50]) = Some s
    /\ existsb (sends 7) (sy_tasks s) = true) by (by_run (fun s => existsb (sends 7) (sy_tasks s)); assumption).
  destruct E as (s & E & K). apply existsb_exists in K. destruct K as (t & Ht & K). exists s, t.
  split; [refine (exec_steps _ _ okA (quickb 60 100) _ _ _ _ _ _ E); [constructor|apply quickb_sound|apply quickb_sound; reflexivity]|].
  split; [exact Ht|now apply sends_sound].
Qed.
(** Quick attempts alone are not enough: here the startup scan takes 4000 s, and a
    mail whose attempt has just begun is taken for one left by a crash. *)
Theorem C44_slow_scan_two_deliveries : exists s t1 t2, reach no_failure (quick 60 4000) (sys0 0) s
  /\ In t1 (sy_tasks s) /\ In t2 (sy_tasks s) /\ sending 7 t1 /\ sending 7 t2 /\ t_id t1 <> t_id t2 /\ t_inst t1 = t_inst t2.
Proof.
  assert (E : exists s, execs no_failureb (quickb 60 4000) (sys0 0)
      ([MEnqueue 7; MBoot 0] ++ m_start ++ [MTick 4000; MStep 1 Yes; MStep 1 Yes; MStep 0 No; MStep 0 Yes; MStep 0 Yes; MStep 0 (Pick 7); MStep 0 Yes;
       MStep 2 Yes; MStep 2 Yes; MStep 2 Yes; MStep 2 Yes; MStep 2 Yes]) = Some s
    /\ match sy_tasks s with [_; t1; t2] => sends 7 t1 && sends 7 t2 && negb (t_id t1 =? t_id t2) && (t_inst t1 =? t_inst t2) | _ => false end = true)
    by (match goal with |- exists s, _ /\ @?f s = true => by_run f end; assumption).
  destruct E as (s & E & K). destruct (sy_tasks s) as [|t0 [|t1 [|t2 [|]]]] eqn:Et; try discriminate K.
  rewrite !andb_true_iff in K. destruct K as [[[K1 K2] K3] K4]. exists s, t1, t2.
  split; [refine (exec_steps _ _ no_failureb (quickb 60 4000) _ _ _ _ _ _ E); [apply no_failureb_sound|apply quickb_sound|apply quickb_sound; reflexivity]|].
  rewrite Et. split; [right; now left|]. split; [right; right; now left|]. split; [now apply sends_sound|]. split; [now apply sends_sound|].
  split; [destruct (Nat.eqb_spec (t_id t1) (t_id t2)); [discriminate|assumption]|now apply Nat.eqb_eq].
Qed.
(** The bound 3600 is exact. *)
Theorem C44_bound_is_exact : exists s t1 t2, reach no_failure (quick 3601 0) (sys0 0) s
  /\ In t1 (sy_tasks s) /\ In t2 (sy_tasks s) /\ sending 7 t1 /\ sending 7 t2 /\ t_id t1 <> t_id t2.
Proof.
  assert (E : exists s, execs no_failureb (quickb 3601 0) (sys0 0)
      ([MEnqueue 7; MBoot 0] ++ m_start ++ [MStep 1 Yes; MStep 1 Yes; MStep 0 No; MStep 0 Yes; MStep 0 Yes; MStep 0 (Pick 7); MStep 0 Yes; MStep 0 Yes; MStep 0 No;
       MTick 3600; MStep 2 Yes; MStep 2 Yes; MStep 2 Yes; MStep 2 Yes; MStep 2 Yes]) = Some s
    /\ match sy_tasks s with [_; t1; t2] => sends 7 t1 && sends 7 t2 && negb (t_id t1 =? t_id t2) | _ => false end = true)
    by (match goal with |- exists s, _ /\ @?f s = true => by_run f end; assumption).
  destruct E as (s & E & K). destruct (sy_tasks s) as [|t0 [|t1 [|t2 [|]]]] eqn:Et; try discriminate K.
  rewrite !andb_true_iff in K. destruct K as [[K1 K2] K3]. exists s, t1, t2.
  split; [refine (exec_steps _ _ no_failureb (quickb 3601 0) _ _ _ _ _ _ E); [apply no_failureb_sound|apply quickb_sound|apply quickb_sound; reflexivity]|].
  rewrite Et. split; [right; now left|]. split; [right; right; now left|]. split; [now apply sends_sound|]. split; [now apply sends_sound|].
  destruct (Nat.eqb_spec (t_id t1) (t_id t2)); [discriminate|assumption].
Qed.

(** A mail left in flight by a crash, an instance started again, and a refusal: still deliverable. *)
Example C45_example : exists acts s1 s2 s, steps (sys0 0) acts s1 /\ sstep s1 (ABoot 1) s2
  /\ lookup 7 (stor (sy_w s1)) = Some (Inflight 0) /\ sy_tasks s1 = [] /\ reach calm any_state s2 s
  /\ lookup 7 (stor (sy_w s)) = Some Queued /\ refusals 7 (sy_trace s) = 1.
Proof.
  set (m1 := [MEnqueue 7; MBoot 0] ++ m_start ++ [MStep 1 Yes; MStep 1 Yes; MCrash 0]).
  set (m2 := [MStep 2 Yes; MStep 2 Yes; MStep 2 Yes; MStep 2 No; MStep 2 Yes; MStep 2 Yes; MStep 2 (Pick 7); MStep 2 Yes; MTick 3600; MStep 3 Yes; MStep 3 Yes; MStep 3 Yes]
             ++ m_refused 3).
  assert (E : exists s1 s2 s, execs okA okS (sys0 0) m1 = Some s1 /\ sexec s1 (MBoot 1) = Some (ABoot 1, s2) /\ execs calmb okS s2 m2 = Some s
    /\ lookup 7 (stor (sy_w s1)) = Some (Inflight 0) /\ sy_tasks s1 = [] /\ lookup 7 (stor (sy_w s)) = Some Queued /\ refusals 7 (sy_trace s) = 1).
  { destruct (run_case (fun s => (lookup 7 (stor (sy_w s)), length (sy_tasks s))) okA okS (sys0 0) m1 _ ltac:(vm_compute; reflexivity)) as (s1 & E1 & K1).
    injection K1 as K1 K2. apply length_zero_iff_nil in K2.
    destruct (run_case (fun s => (lookup 7 (stor (sy_w s)), refusals 7 (sy_trace s))) calmb okS
      (Sys (sy_w (after (sys0 0) m1)) (sy_tasks (after (sys0 0) m1) ++ [Task (sy_next (after (sys0 0) m1)) 1 run])
           (S (sy_next (after (sys0 0) m1))) (sy_mails (after (sys0 0) m1)) (sy_trace (after (sys0 0) m1))) m2 _ ltac:(vm_compute; reflexivity)) as (s & E3 & K3).
    injection K3 as K3 K4. assert (Ea : after (sys0 0) m1 = s1) by (unfold after; now rewrite E1). rewrite Ea in E3.
    eexists s1, _, s. split; [exact E1|]. split; [reflexivity|]. split; [exact E3|]. auto. }
  destruct E as (s1 & s2 & s & E1 & E2 & E3 & K1 & K2 & K3 & K4).
  destruct (steps_of_reach any_action any_state (sys0 0) s1) as [acts H]; [refine (exec_steps _ _ okA okS _ _ _ _ _ _ E1); constructor|].
  exists acts, s1, s2, s. split; [exact H|]. split; [eapply sexec_sound; eauto|]. split; [exact K1|]. split; [exact K2|].
  split; [eapply execs_sound; [apply calmb_sound|intros; exact I|apply rc_refl; exact I|exact E3]|]. auto.
Qed.
(** Two ways to be stuck: enqueued after the scan; in flight after a failing [get_mail]. *)
Example C45_late_example : exists s, reach any_action any_state (sys0 0) s
  /\ (forall t, In t (sy_tasks s) -> exists ok, t_prog t = PEnd ok)
  /\ lookup 7 (stor (sy_w s)) = Some (Inflight 0) /\ lookup 8 (stor (sy_w s)) = Some Queued.
Proof.
  assert (E : exists s, execs okA okS (sys0 0) ([MEnqueue 7; MBoot 0] ++ m_start ++ m_scan_end ++ [MStep 1 Yes; MStep 1 Broken; MEnqueue 8]) = Some s
    /\ ends s = true /\ lookup 7 (stor (sy_w s)) = Some (Inflight 0) /\ lookup 8 (stor (sy_w s)) = Some Queued).
  { by_run (fun s => (ends s, lookup 7 (stor (sy_w s)), lookup 8 (stor (sy_w s)))). match goal with X : (_, _, _) = _ |- _ => injection X as E1 E2 E3 end. auto. }
  destruct E as (s & E & K1 & K2 & K3). exists s. split; [refine (exec_steps _ _ okA okS _ _ _ _ _ _ E); constructor|]. split; [|auto].
  intros t Ht. unfold ends in K1. rewrite forallb_forall in K1. specialize (K1 t Ht). destruct (t_prog t) as [ok| | | | | | | | | | | | | |]; try discriminate K1. now exists ok.
Qed.
(** After a crash: the mail 7 is put back exactly an hour after the new start. *)
Example C60_example : exists acts s s1 acts1 s2 act s3, steps (sys0 0) acts s /\ (forall t, In t (sy_tasks s) -> t_inst t <> 1) /\ sstep s (ABoot 1) s1
  /\ steps s1 acts1 s2 /\ sstep s2 act s3 /\ works_for 1 3 s2 /\ does s2 s3 3 (ERecover 7 true)
  /\ lookup 7 (stor (sy_w s2)) = Some (Inflight 0) /\ lookup 7 (stor (sy_w s3)) = Some Queued /\ now (sy_w s) = 0%N /\ now (sy_w s2) = 3600%N.
Proof.
  set (m1 := [MEnqueue 7; MBoot 0] ++ m_start ++ [MStep 1 Yes; MStep 1 Yes; MCrash 0]).
  set (m2 := [MStep 2 Yes; MStep 2 Yes; MStep 2 Yes; MStep 2 No; MStep 2 Yes; MStep 2 Yes; MStep 2 (Pick 7); MStep 2 Yes; MTick 3600; MStep 3 Yes]).
  assert (E : exists s, execs okA okS (sys0 0) m1 = Some s /\ (forall t, In t (sy_tasks s) -> t_inst t <> 1) /\ now (sy_w s) = 0%N
    /\ exists s1, sexec s (MBoot 1) = Some (ABoot 1, s1) /\ exists s2, execs okA okS s1 m2 = Some s2 /\ works_for 1 3 s2
    /\ lookup 7 (stor (sy_w s2)) = Some (Inflight 0) /\ now (sy_w s2) = 3600%N
    /\ exists act s3, sexec s2 (MStep 3 Yes) = Some (act, s3) /\ does s2 s3 3 (ERecover 7 true) /\ lookup 7 (stor (sy_w s3)) = Some Queued).
  { eexists. split; [vm_compute; reflexivity|]. split; [intros t []|]. split; [reflexivity|]. eexists. split; [vm_compute; reflexivity|].
    eexists. split; [vm_compute; reflexivity|]. split; [eexists; split; [right; left; reflexivity|split; reflexivity]|]. split; [reflexivity|].
    split; [reflexivity|]. eexists _, _. split; [vm_compute; reflexivity|]. split; reflexivity. }
  destruct E as (s & E1 & Hn & En & s1 & E2 & s2 & E3 & Hw & El & En2 & act & s3 & E4 & D & El3).
  destruct (steps_of_reach any_action any_state (sys0 0) s) as [acts H]; [refine (exec_steps _ _ okA okS _ _ _ _ _ _ E1); constructor|].
  destruct (steps_of_reach any_action any_state s1 s2) as [acts' H']; [eapply (execs_sound _ _ okA okS); [constructor|constructor|apply rc_refl; constructor|exact E3]|].
  exists acts, s, s1, acts', s2, act, s3. split; [exact H|]. split; [exact Hn|]. split; [eapply sexec_sound; eauto|]. split; [exact H'|].
  split; [eapply sexec_sound; eauto|]. split; [exact Hw|]. split; [exact D|]. auto.
Qed.
Example C48_example : exists s, reach any_action any_state (sys0 0) s /\ waiting 7 s.
Proof.
  assert (E : exists s, execs okA okS (sys0 0) ([MEnqueue 7; MBoot 0] ++ m_start) = Some s /\ lookup 7 (stor (sy_w s)) = Some Queued
    /\ exists a b, sy_tasks s = [a; b] /\ t_prog b = send_queued_mail (Qm 7)).
  { by_run (fun s => (lookup 7 (stor (sy_w s)), option_map t_prog (nth_error (sy_tasks s) 1), length (sy_tasks s))).
    match goal with X : (_, _, _) = _ |- _ => injection X as E1 E2 E3 end. split; [exact E1|].
    destruct (sy_tasks s) as [|a [|b [|]]]; try discriminate E3. injection E2 as E2. exists a, b. auto. }
  destruct E as (s & E & El & a & b & Et & Ep). exists s. split; [refine (exec_steps _ _ okA okS _ _ _ _ _ _ E); constructor|].
  split; [|exact El]. exists b. rewrite Et. split; [right; now left|exact Ep].
Qed.
Example C49_example : exists s, reach no_failure (quick 60 100) (sys0 0) s /\ accepts (sy_trace s) = [7] /\ refusals 7 (sy_trace s) = 1.
Proof.
  assert (E : exists s, execs no_failureb (quickb 60 100) (sys0 0) ordinary = Some s /\ accepts (sy_trace s) = [7] /\ refusals 7 (sy_trace s) = 1).
  { by_run (fun s => (accepts (sy_trace s), refusals 7 (sy_trace s))). match goal with X : (_, _) = _ |- _ => injection X as E1 E2 end. auto. }
  destruct E as (s & E & K). exists s. split; [|exact K].
  refine (exec_steps _ _ no_failureb (quickb 60 100) _ _ _ _ _ _ E); [apply no_failureb_sound|apply quickb_sound|apply quickb_sound; reflexivity].
Qed.
(** A crash between acceptance and [send_done] delivers twice; so does a failing [send_done]. *)
Theorem C49_crash_delivers_twice : exists s, reach any_action (quick 60 100) (sys0 0) s /\ accepts (sy_trace s) = [7; 7].
Proof.
  assert (E : exists s, execs okA (quickb 60 100) (sys0 0)
     ([MEnqueue 7; MBoot 0] ++ m_start ++ [MStep 1 Yes; MStep 1 Yes; MStep 1 Yes; MCrash 0; MBoot 1] ++
      [MStep 2 Yes; MStep 2 Yes; MStep 2 Yes; MStep 2 No; MStep 2 Yes; MStep 2 Yes; MStep 2 (Pick 7); MStep 2 Yes; MStep 2 Yes; MStep 2 No;
       MTick 3600; MStep 3 Yes; MStep 3 Yes; MStep 3 Yes] ++ m_delivered 3) = Some s /\ accepts (sy_trace s) = [7; 7])
    by (by_run (fun s => accepts (sy_trace s)); assumption).
  destruct E as (s & E & K). exists s. split; [|exact K].
  refine (exec_steps _ _ okA (quickb 60 100) _ _ _ _ _ _ E); [constructor|apply quickb_sound|apply quickb_sound; reflexivity].
Qed.

Print Assumptions C42_no_mail_lost.
Print Assumptions C42_no_mail_invented.
Print Assumptions C43_protocol.
Print Assumptions C43_done_after_accept.
Print Assumptions C43_removed_after_accept.
Print Assumptions C43_refused_goes_back.
Print Assumptions C43_refused_ends.
Print Assumptions C43_life_of_a_task.
Print Assumptions C60_recovery_waits_an_hour.
Print Assumptions C60_in_flight_undisturbed.
Print Assumptions C44_one_delivery_at_a_time.
Print Assumptions C45_deliverable.
Print Assumptions C49_at_most_once.
Print Assumptions C45_late_mail_waits.
Print Assumptions C48_retried_without_limit.
Print Assumptions C44_slow_scan_two_deliveries.
Print Assumptions C44_bound_is_exact.
Print Assumptions C49_crash_delivers_twice.
