(** Every mail stored when an instance starts can always still be delivered (C45). *)
From Coq Require Import List Arith NArith Bool Lia.
Import ListNotations.
From Verif Require Import Queue SpecQueue QueueProofs QueueTime.
Local Open Scope nat_scope.

(** Something is going to be done about the mail [id]: an attempt is under way or
    about to be, it waits for the recovery delay, or the scan that will list it is
    not over. *)
Inductive handles (id : nat) (w : world) : prog -> Prop :=
| hd_attempt : lookup id (stor w) = Some Queued -> handles id w (send_queued_mail (Qm id))
| hd_attempt_goto : lookup id (stor w) = Some Queued -> handles id w (PGoto (CSend (Qm id)))
| hd_spawn k : lookup id (stor w) = Some Queued -> handles id w (PSpawn (CSend (Qm id)) k)
| hd_get i : im_id i = id -> lookup id (stor w) = Some (Inflight (im_tok i)) -> handles id w (PGetMail i (after_get i))
| hd_send i : im_id i = id -> lookup id (stor w) = Some (Inflight (im_tok i)) -> handles id w (PTransport id (after_transport i))
| hd_done i : im_id i = id -> lookup id (stor w) = Some (Inflight (im_tok i)) -> handles id w (PSendDone i PEnd)
| hd_cancel i : im_id i = id -> lookup id (stor w) = Some (Inflight (im_tok i)) -> handles id w (PSendCancel i after_cancel)
| hd_wait t tok : lookup id (stor w) = Some (Inflight tok) -> handles id w (PDelay t (after_delay (Fm id tok)))
| hd_recover tok : lookup id (stor w) = Some (Inflight tok) -> handles id w (PCancelFound (Fm id tok) after_found)
| hd_spawn_found t tok k : lookup id (stor w) = Some (Inflight tok) -> handles id w (PSpawn (CFound t (Fm id tok)) k)
(* the scan is not over *)
| hd_run : handles id w run
| hd_list t : handles id w (PListQueue (fun l => PGoto (CQueueLoop t l)))
| hd_loop t l : (lookup id (stor w) = Some Queued -> In id (li_must l) /\ ~ In id (li_seen l)) -> handles id w (queue_loop t l)
| hd_loop_goto t l : (lookup id (stor w) = Some Queued -> In id (li_must l) /\ ~ In id (li_seen l)) ->
    handles id w (PGoto (CQueueLoop t l))
| hd_loop_spawn t l id' : (lookup id (stor w) = Some Queued -> id = id' \/ In id (li_must l) /\ ~ In id (li_seen l)) ->
    handles id w (PSpawn (CSend (Qm id')) (PGoto (CQueueLoop t l)))
| hd_find t : lookup id (stor w) <> Some Queued -> handles id w (PFindInflight (fun l => PGoto (CFindLoop t l)))
| hd_find_loop t l tok : lookup id (stor w) = Some (Inflight tok) -> In (id, tok) (li_must l) -> ~ In (id, tok) (li_seen l) ->
    handles id w (find_loop t l)
| hd_find_goto t l tok : lookup id (stor w) = Some (Inflight tok) -> In (id, tok) (li_must l) -> ~ In (id, tok) (li_seen l) ->
    handles id w (PGoto (CFindLoop t l))
| hd_find_spawn t l tok c : lookup id (stor w) = Some (Inflight tok) -> In (id, tok) (li_must l) -> ~ In (id, tok) (li_seen l) ->
    handles id w (PSpawn c (PGoto (CFindLoop t l))).

Lemma handles_same id w w' p : lookup id (stor w') = lookup id (stor w) -> handles id w p -> handles id w' p.
Proof.
  intros E H. destruct H; try (now constructor); try (constructor; congruence); try (econstructor; eauto; congruence).
  - constructor; rewrite E; assumption.
  - constructor; rewrite E; assumption.
  - constructor; rewrite E; assumption.
Qed.

(** ** Coverage is preserved *)
Ltac shape H := inversion H; subst; cbn [accepted stor now fresh set_stor im_id im_tok im_since fm_id fm_tok] in *.

(** The step of the task that handles the mail. *)
Lemma handles_step id w p ev p' cs w' : handles id w p -> pstep w p Normal ev p' cs w' ->
  lookup id (stor w') = None \/ handles id w' p' \/ exists c, In c cs /\ handles id w' (body c).
Proof.
  intros Hh H. destruct Hh; cbn in H; shape H; try congruence.
  all: try (right; left; constructor; congruence).
  - (* start *) right. left. constructor; cbn [stor set_stor im_id im_tok]; [reflexivity|]. now rewrite lookup_put, Nat.eqb_refl.
  - (* spawn *) right. right. eexists. split; [now left|]. now constructor.
  - (* transport *) right. left. now apply hd_done.
  - (* done *) left. now rewrite lookup_del, Nat.eqb_refl.
  - (* cancel *) right. left. apply hd_spawn. cbn [stor set_stor]. now rewrite lookup_put, Nat.eqb_refl.
  - (* recover *) right. left. apply hd_attempt_goto. cbn [stor set_stor]. now rewrite lookup_put, Nat.eqb_refl.
  - (* spawn found *) right. right. eexists. split; [now left|]. now constructor.
  - (* list *) right. left. apply hd_loop_goto. intros E. cbn. split; [now apply queued_ids_in|auto].
  - (* item *) right. left. apply hd_loop_spawn. cbn. intros E. destruct (H0 E) as [K1 K2].
    destruct (Nat.eq_dec id id0) as [->|Hn]; [now left|right]. split; [exact K1|]. intros [E'|E']; [congruence|contradiction].
  - (* end *) right. left. apply hd_find. intros E. destruct (H0 E) as [K1 K2]. auto.
  - (* goto *) right. left. now apply hd_loop.
  - (* spawn *)
    destruct (lookup id (stor w')) as [[|]|] eqn:E; [| |now left].
    + destruct (H0 eq_refl) as [->|H1].
      * right. right. eexists. split; [now left|]. now apply hd_attempt.
      * right. left. apply hd_loop_goto. auto.
    + right. left. apply hd_loop_goto. congruence.
  - (* find *)
    destruct (lookup id (stor w')) as [[|tok]|] eqn:E; [congruence| |now left].
    right. left. eapply hd_find_goto; [exact E| |intros []]. cbn. now apply inflight_ids_in.
  - (* found item *) right. left.
    destruct (Nat.eq_dec id0 id) as [->|Hn].
    + assert (tok0 = tok) as -> by congruence. now apply hd_spawn_found.
    + eapply hd_find_spawn; [exact H0|assumption|]. cbn. intros [E|E]; [congruence|contradiction].
  - (* end *) exfalso. eauto.
  - (* goto *) right. left. eapply hd_find_loop; eauto.
  - (* spawn *) right. left. eapply hd_find_goto; eauto.
Qed.

(** A step that changes the status of a mail handles it. *)
Lemma changer_handles ms acc h id w p ev p' cs w' : point ms acc h p -> pstep w p Normal ev p' cs w' ->
  lookup id (stor w') = lookup id (stor w) \/ lookup id (stor w') = None \/ handles id w' p'.
Proof.
  intros Hp H. inversion Hp; subst; clear Hp; cbn in H; shape H; auto.
  - destruct (Nat.eq_dec id id0) as [->|Hn]; [|left; now rewrite put_other].
    right. right. constructor; cbn [stor set_stor im_id im_tok]; [reflexivity|]. now rewrite lookup_put, Nat.eqb_refl.
  - destruct (Nat.eq_dec id id0) as [->|Hn]; [|left; now rewrite del_other].
    right. left. now rewrite lookup_del, Nat.eqb_refl.
  - destruct (Nat.eq_dec id id0) as [->|Hn]; [|left; now rewrite put_other].
    right. right. apply hd_spawn. cbn [stor set_stor]. now rewrite lookup_put, Nat.eqb_refl.
  - destruct (Nat.eq_dec id id0) as [->|Hn]; [|left; now rewrite put_other].
    right. right. apply hd_attempt_goto. cbn [stor set_stor]. now rewrite lookup_put, Nat.eqb_refl.
Qed.

Definition covered (id : nat) (s : sys) : Prop :=
  In id (sy_mails s) /\
  (lookup id (stor (sy_w s)) = None \/ exists t, In t (sy_tasks s) /\ handles id (sy_w s) (t_prog t)).

(** A failing operation about another mail leaves this one alone. *)
Lemma failure_other id w p ev p' cs w' i : pstep w p Failure ev p' cs w' -> about ev = Some i -> i <> id ->
  lookup id (stor w') = lookup id (stor w) /\ ~ handles id w p /\ cs = [].
Proof.
  intros H E Hn. inversion H; subst; cbn in E; try discriminate E; injection E as <-;
    (split; [cbn [stor set_stor]|split; [intros Hh; inversion Hh; subst; cbn in Hn; congruence|reflexivity]]).
  - match goal with X : either _ _ _ |- _ => destruct X as [->| ->]; [reflexivity|] end. destruct (lookup id0 (stor w)) as [[|]|]; try reflexivity. apply put_other. congruence.
  - reflexivity.
  - match goal with X : either _ _ _ |- _ => destruct X as [->| ->]; [reflexivity|] end. destruct (lookup (im_id i0) (stor w)) as [[|t]|]; try reflexivity. destruct (t =? im_tok i0); [|reflexivity]. apply del_other. congruence.
  - match goal with X : either _ _ _ |- _ => destruct X as [->| ->]; [reflexivity|] end. destruct (lookup (im_id i0) (stor w)) as [[|t]|]; try reflexivity. destruct (t =? im_tok i0); [|reflexivity]. apply put_other. congruence.
  - match goal with X : either _ _ _ |- _ => destruct X as [->| ->]; [reflexivity|] end. destruct (lookup (fm_id f) (stor w)) as [[|t]|]; try reflexivity. destruct (t =? fm_tok f); [|reflexivity]. apply put_other. congruence.
Qed.
Lemma calm_spares id s act s' : calm act -> spares id s act s'.
Proof. unfold spares. destruct act as [[]| | | |]; cbn; auto. intros []. Qed.

Lemma covered_step id s act s' : inv s -> covered id s -> spares id s act s' -> sstep s act s' -> covered id s'.
Proof.
  intros I [Hm Hc] A H. inversion H; subst; cbn [sy_w sy_tasks sy_next sy_mails sy_trace spares calm] in *; try contradiction.
  - destruct lab.
    2: { destruct A as (m & ev' & i & E & Ea & Hn). apply app_inv_head in E. injection E as _ <-.
         destruct (failure_other id _ _ _ _ _ _ _ H0 Ea Hn) as (El & Nh & ->). split; [exact Hm|]. cbn [sy_w sy_tasks]. rewrite El.
         destruct Hc as [Hl|(t & Ht & Hh)]; [now left|right]. exists t. apply in_mid in Ht. destruct Ht as [Ht|[->|Ht]].
         - split; [apply in_mid; auto|]. now apply (handles_same _ w).
         - contradiction.
         - split; [apply in_mid; right; right; apply in_or_app; auto|]. now apply (handles_same _ w). }
    split; [exact Hm|]. cbn [sy_w sy_tasks].
    assert (Hp : point ms (accepted w) (history n tr) p).
    { pose proof (iv_points _ I) as F. cbn in F. rewrite Forall_forall in F. apply (F (Task n inst p)), in_elt. }
    destruct Hc as [Hl|(t & Ht & Hh)]; [left; eapply step_none; eauto|].
    assert (Hnew : handles id w' p' -> exists t, In t (a ++ Task n inst p' :: b ++ new_tasks nx inst cs) /\ handles id w' (t_prog t)).
    { intros Hx. exists (Task n inst p'). split; [apply in_elt|exact Hx]. }
    destruct (changer_handles _ _ _ id _ _ _ _ _ _ Hp H0) as [E|[E|E]]; [|now left|right; auto].
    apply in_mid in Ht. destruct Ht as [Ht|[->|Ht]].
    + right. exists t. split; [apply in_mid; auto|]. now apply (handles_same _ w).
    + cbn [t_prog] in Hh. destruct (handles_step _ _ _ _ _ _ _ Hh H0) as [E1|[E1|(c & Hc & E1)]]; [now left|right; auto|].
      right. assert (exists m, In (m, c) (number nx cs)) as (m & Hmc).
      { clear -Hc. revert nx. induction cs as [|c' cs IH]; intros nx; [destruct Hc|].
        destruct Hc as [->|Hc]; [exists nx; now left|]. destruct (IH Hc (S nx)) as (m & Hx). exists m. now right. }
      exists (Task m inst (body c)). split; [|exact E1]. apply in_mid. right. right. apply in_or_app. right.
      unfold new_tasks. apply in_map_iff. exists (m, c). auto.
    + right. exists t. split; [apply in_mid; right; right; apply in_or_app; auto|]. now apply (handles_same _ w).
  - split; [apply in_or_app; now left|]. cbn [sy_w sy_tasks].
    assert (E : lookup id (stor (set_stor w (put id0 Queued (stor w)))) = lookup id (stor w)).
    { cbn [stor set_stor]. rewrite put_other; [reflexivity|]. congruence. }
    rewrite E. destruct Hc as [Hl|(t & Ht & Hh)]; [now left|right]. exists t. split; [exact Ht|]. now apply (handles_same _ w).
  - split; [exact Hm|]. cbn [sy_w sy_tasks stor]. destruct Hc as [Hl|(t & Ht & Hh)]; [now left|right].
    exists t. split; [exact Ht|]. now apply (handles_same _ w).
Qed.

(** ** Progress *)
Definition calmly (s s' : sys) : Prop := reach calm any_state s s'.
Lemma calmly_refl s : calmly s s.
Proof. apply rc_refl. exact I. Qed.
Lemma calmly_step s act s1 s' : calm act -> sstep s act s1 -> calmly s1 s' -> calmly s s'.
Proof.
  intros A H R. induction R as [_|x a x' R IH Ha Hs _].
  - eapply rc_step; [apply calmly_refl|exact A|exact H|exact I].
  - eapply rc_step; [exact IH|exact Ha|exact Hs|exact I].
Qed.

(** A task can be chosen to do its operation. *)
Lemma do_op s t ev p' cs w' : In t (sy_tasks s) -> pstep (sy_w s) (t_prog t) Normal ev p' cs w' ->
  exists s', sstep s (AStep Normal) s' /\ sy_w s' = w' /\ sy_mails s' = sy_mails s
  /\ (exists t', In t' (sy_tasks s') /\ t_prog t' = p')
  /\ forall c, In c cs -> exists t', In t' (sy_tasks s') /\ t_prog t' = body c.
Proof.
  intros Ht H. destruct s as [w ts nx ms tr]. cbn [sy_w sy_tasks sy_mails] in *. destruct t as [n inst p]. cbn [t_prog] in H.
  apply in_split in Ht. destruct Ht as (a & b & ->).
  exists (Sys w' (a ++ Task n inst p' :: b ++ new_tasks nx inst cs) (nx + length cs) ms (tr ++ [(n, ev)])).
  split; [now apply ss_task|]. cbn. repeat split.
  - exists (Task n inst p'). split; [apply in_elt|reflexivity].
  - intros c Hc. assert (exists m, In (m, c) (number nx cs)) as (m & Hmc).
    { clear -Hc. revert nx. induction cs as [|c' cs IH]; intros nx; [destruct Hc|].
      destruct Hc as [->|Hc]; [exists nx; now left|]. destruct (IH Hc (S nx)) as (m & Hx). exists m. now right. }
    exists (Task m inst (body c)). split; [|reflexivity]. apply in_mid. right. right. apply in_or_app. right.
    unfold new_tasks. apply in_map_iff. exists (m, c). auto.
Qed.

Definition removable (id : nat) (s : sys) : Prop := exists s', calmly s s' /\ lookup id (stor (sy_w s')) = None.

Lemma go id s p ev p' cs w' : has s p -> pstep (sy_w s) p Normal ev p' cs w' ->
  (forall s', sy_w s' = w' -> has s' p' -> (forall c, In c cs -> has s' (body c)) -> removable id s') -> removable id s.
Proof.
  intros (t & Ht & <-) H K. destruct (do_op _ _ _ _ _ _ Ht H) as (s' & S & E1 & _ & E3 & E4).
  destruct (K s' E1 E3 E4) as (s2 & R & E). exists s2. split; [|exact E]. eapply calmly_step; eauto. exact I.
Qed.

Lemma go_done id s i : has s (PSendDone i PEnd) -> im_id i = id ->
  lookup id (stor (sy_w s)) = Some (Inflight (im_tok i)) -> removable id s.
Proof.
  intros Hs <- El. eapply go; [exact Hs|now apply ps_done|]. intros s' E _ _. exists s'. split; [apply calmly_refl|].
  rewrite E. cbn [stor set_stor im_id]. now rewrite lookup_del, Nat.eqb_refl.
Qed.
Lemma go_send id s i : has s (PTransport id (after_transport i)) -> im_id i = id ->
  lookup id (stor (sy_w s)) = Some (Inflight (im_tok i)) -> removable id s.
Proof.
  intros Hs Ei El. eapply go; [exact Hs|apply ps_send_ok|]. intros s' E Hs' _. apply (go_done id s' i); auto. rewrite E. exact El.
Qed.
Lemma go_get id s i : has s (PGetMail i (after_get i)) -> im_id i = id ->
  lookup id (stor (sy_w s)) = Some (Inflight (im_tok i)) -> removable id s.
Proof.
  intros Hs <- El. eapply go; [exact Hs|apply ps_get|]. intros s' E Hs' _. apply (go_send _ s' i); auto. rewrite E. exact El.
Qed.
Lemma go_attempt id s : has s (send_queued_mail (Qm id)) -> lookup id (stor (sy_w s)) = Some Queued -> removable id s.
Proof.
  intros Hs El. eapply go; [exact Hs|now apply ps_start|]. intros s' E Hs' _.
  eapply go_get; [exact Hs'|reflexivity|]. rewrite E. cbn [stor set_stor]. now rewrite lookup_put, Nat.eqb_refl.
Qed.
Lemma go_goto id s : has s (PGoto (CSend (Qm id))) -> lookup id (stor (sy_w s)) = Some Queued -> removable id s.
Proof.
  intros Hs El. eapply go; [exact Hs|apply ps_goto|]. intros s' E Hs' _. apply go_attempt; [exact Hs'|now rewrite E].
Qed.
Lemma go_spawn id s k : has s (PSpawn (CSend (Qm id)) k) -> lookup id (stor (sy_w s)) = Some Queued -> removable id s.
Proof.
  intros Hs El. eapply go; [exact Hs|apply ps_spawn|]. intros s' E _ Hc. apply go_attempt; [|now rewrite E].
  apply (Hc (CSend (Qm id))). now left.
Qed.
Lemma go_cancel id s i : has s (PSendCancel i after_cancel) -> im_id i = id ->
  lookup id (stor (sy_w s)) = Some (Inflight (im_tok i)) -> removable id s.
Proof.
  intros Hs <- El. eapply go; [exact Hs|now apply ps_cancel|]. intros s' E Hs' _. eapply go_spawn; [exact Hs'|].
  rewrite E. cbn [stor set_stor]. now rewrite lookup_put, Nat.eqb_refl.
Qed.
Lemma go_recover id s tok : has s (PCancelFound (Fm id tok) after_found) ->
  lookup id (stor (sy_w s)) = Some (Inflight tok) -> removable id s.
Proof.
  intros Hs El. eapply go; [exact Hs|now apply ps_recover|]. intros s' E Hs' _. eapply go_goto; [exact Hs'|].
  rewrite E. cbn [stor set_stor]. now rewrite lookup_put, Nat.eqb_refl.
Qed.
Lemma go_wait id s t tok : has s (PDelay t (after_delay (Fm id tok))) ->
  lookup id (stor (sy_w s)) = Some (Inflight tok) -> removable id s.
Proof.
  intros (tk & Ht & Ep) El. destruct s as [w ts nx ms tr]. cbn [sy_w sy_tasks] in *.
  set (s1 := Sys (World (now w + t) (stor w) (fresh w) (accepted w)) ts nx ms tr).
  assert (removable id s1) as (s2 & R & E).
  { eapply (go id s1); [exists tk; eauto|apply ps_delay; cbn; lia|]. intros s' E Hs' _.
    eapply go_recover; [exact Hs'|]. rewrite E. exact El. }
  exists s2. split; [|exact E]. eapply (calmly_step _ ATick s1); [exact I|apply ss_tick|exact R].
Qed.
Lemma go_spawn_found id s t tok k : has s (PSpawn (CFound t (Fm id tok)) k) ->
  lookup id (stor (sy_w s)) = Some (Inflight tok) -> removable id s.
Proof.
  intros Hs El. eapply go; [exact Hs|apply ps_spawn|]. intros s' E _ Hc. eapply go_wait; [|rewrite E; exact El].
  apply (Hc (CFound t (Fm id tok))). now left.
Qed.
Lemma go_find_loop id s t l tok : has s (find_loop t l) ->
  lookup id (stor (sy_w s)) = Some (Inflight tok) -> removable id s.
Proof.
  intros Hs El. eapply go; [exact Hs|eapply ps_find_item; exact El|]. intros s' E Hs' _.
  eapply go_spawn_found; [exact Hs'|]. rewrite E. exact El.
Qed.
Lemma go_find_goto id s t l tok : has s (PGoto (CFindLoop t l)) ->
  lookup id (stor (sy_w s)) = Some (Inflight tok) -> removable id s.
Proof.
  intros Hs El. eapply go; [exact Hs|apply ps_goto|]. intros s' E Hs' _. eapply go_find_loop; [exact Hs'|]. rewrite E. exact El.
Qed.
Lemma go_find_spawn id s t l tok c : has s (PSpawn c (PGoto (CFindLoop t l))) ->
  lookup id (stor (sy_w s)) = Some (Inflight tok) -> removable id s.
Proof.
  intros Hs El. eapply go; [exact Hs|apply ps_spawn|]. intros s' E Hs' _. eapply go_find_goto; [exact Hs'|]. rewrite E. exact El.
Qed.
Lemma go_find id s t tok : has s (PFindInflight (fun l => PGoto (CFindLoop t l))) ->
  lookup id (stor (sy_w s)) = Some (Inflight tok) -> removable id s.
Proof.
  intros Hs El. eapply go; [exact Hs|apply ps_find|]. intros s' E Hs' _. eapply go_find_goto; [exact Hs'|]. rewrite E. exact El.
Qed.

(** The queue can be listed to its end. *)
Definition unseen (s : sys) (l : listing nat) : list nat :=
  filter (fun id => match lookup id (stor (sy_w s)) with Some Queued => negb (existsb (Nat.eqb id) (li_seen l)) | _ => false end)
         (li_must l).
Lemma filter_shorter {A} (f g : A -> bool) l x : (forall y, g y = true -> f y = true) -> In x l -> f x = true -> g x = false ->
  length (filter g l) < length (filter f l).
Proof.
  intros Hs Hin Hf Hg. induction l as [|y l IH]; [destruct Hin|]. cbn.
  assert (Hle : length (filter g l) <= length (filter f l)).
  { clear -Hs. induction l as [|z l IH]; cbn; [lia|]. destruct (g z) eqn:E; [rewrite (Hs z E); cbn; lia|destruct (f z); cbn; lia]. }
  destruct Hin as [->|Hin].
  - rewrite Hf, Hg. cbn. lia.
  - specialize (IH Hin). destruct (g y) eqn:E; [rewrite (Hs y E); cbn; lia|destruct (f y); cbn; lia].
Qed.
Lemma go_loop_inflight id t tok : forall n s l, length (unseen s l) <= n -> has s (queue_loop t l) ->
  lookup id (stor (sy_w s)) = Some (Inflight tok) -> removable id s.
Proof.
  induction n as [|n IH]; intros s l Hn Hs El.
  - eapply go; [exact Hs|apply ps_list_end|].
    + intros j Hj Eq. destruct (existsb (Nat.eqb j) (li_seen l)) eqn:Ex.
      * apply existsb_exists in Ex. destruct Ex as (y & Hy & E). apply Nat.eqb_eq in E. now subst.
      * exfalso. assert (Hin : In j (unseen s l)) by (apply filter_In; rewrite Eq, Ex; auto).
        destruct (unseen s l); [exact Hin|cbn in Hn; lia].
    + intros s' E Hs' _. eapply go_find; [exact Hs'|]. rewrite E. exact El.
  - destruct (unseen s l) as [|j r] eqn:Eu.
    { apply (IH s l); auto. rewrite Eu. cbn. lia. }
    assert (Hin : In j (unseen s l)) by (rewrite Eu; now left). rewrite <- Eu in Hn.
    apply filter_In in Hin. destruct Hin as [Hm Hj]. destruct (lookup j (stor (sy_w s))) as [[|]|] eqn:Ej; try discriminate.
    eapply go; [exact Hs|apply (ps_list_item _ _ _ j Ej)|]. intros s1 E1 Hs1 _.
    eapply go; [exact Hs1|apply ps_spawn|]. intros s2 E2 Hs2 _.
    eapply go; [exact Hs2|apply ps_goto|]. intros s3 E3 Hs3 _.
    assert (E : sy_w s3 = sy_w s) by congruence.
    apply (IH s3 (Listing (li_must l) (j :: li_seen l))); [|exact Hs3|now rewrite E].
    unfold unseen in *. rewrite E. cbn [li_must li_seen].
    enough (length (filter (fun id0 => match lookup id0 (stor (sy_w s)) with
       | Some Queued => negb (existsb (Nat.eqb id0) (j :: li_seen l)) | _ => false end) (li_must l)) <
       length (filter (fun id0 => match lookup id0 (stor (sy_w s)) with
       | Some Queued => negb (existsb (Nat.eqb id0) (li_seen l)) | _ => false end) (li_must l))) by lia.
    apply filter_shorter with (x := j); auto.
    + intros y. destruct (lookup y (stor (sy_w s))) as [[|]|]; auto. cbn [existsb]. rewrite negb_orb, andb_true_iff. tauto.
    + now rewrite Ej.
    + rewrite Ej. cbn [existsb]. now rewrite Nat.eqb_refl.
Qed.
Lemma go_loop id s t l : has s (queue_loop t l) -> lookup id (stor (sy_w s)) <> None -> removable id s.
Proof.
  intros Hs El. destruct (lookup id (stor (sy_w s))) as [[|tok]|] eqn:E; [| |congruence].
  - eapply go; [exact Hs|apply (ps_list_item _ _ _ id E)|]. intros s1 E1 Hs1 _.
    eapply go_spawn; [exact Hs1|]. now rewrite E1.
  - eapply go_loop_inflight; eauto.
Qed.
Lemma go_loop_goto id s t l : has s (PGoto (CQueueLoop t l)) -> lookup id (stor (sy_w s)) <> None -> removable id s.
Proof.
  intros Hs El. eapply go; [exact Hs|apply ps_goto|]. intros s' E Hs' _. eapply go_loop; [exact Hs'|]. now rewrite E.
Qed.
Lemma go_list id s t : has s (PListQueue (fun l => PGoto (CQueueLoop t l))) -> lookup id (stor (sy_w s)) <> None -> removable id s.
Proof.
  intros Hs El. eapply go; [exact Hs|apply ps_list|]. intros s' E Hs' _. eapply go_loop_goto; [exact Hs'|]. now rewrite E.
Qed.

Lemma handles_removable id s t : In t (sy_tasks s) -> handles id (sy_w s) (t_prog t) ->
  lookup id (stor (sy_w s)) <> None -> removable id s.
Proof.
  intros Ht Hh El. assert (Hs : has s (t_prog t)) by (exists t; auto).
  destruct (t_prog t) eqn:Ep; inversion Hh; subst.
  all: try (eapply go_attempt; eauto; fail).
  all: try (eapply go_get; eauto; fail). all: try (eapply go_send; eauto; fail).
  all: try (eapply go_done; eauto; fail). all: try (eapply go_cancel; eauto; fail).
  all: try (eapply go_wait; eauto; fail). all: try (eapply go_recover; eauto; fail).
  all: try (eapply go_spawn; eauto; fail). all: try (eapply go_spawn_found; eauto; fail).
  all: try (eapply go_find_loop; eauto; fail). all: try (eapply go_find_goto; eauto; fail).
  all: try (eapply go_find_spawn; eauto; fail). all: try (eapply go_loop; eauto; fail).
  all: try (eapply go_loop_goto; eauto; fail). all: try (eapply go_list; eauto; fail).
  all: try (eapply go_goto; eauto; fail).
  - eapply go; [exact Hs|apply ps_now|]. intros s' E Hs' _. eapply go_list; [exact Hs'|]. now rewrite E.
  - destruct (lookup id (stor (sy_w s))) as [[|tok]|] eqn:E; try congruence. eapply go_find; eauto.
  - eapply go; [exact Hs|apply ps_spawn|]. intros s' E Hs' _. eapply go_loop_goto; [exact Hs'|]. now rewrite E.
Qed.
Lemma covered_removable id s : covered id s -> removable id s.
Proof.
  intros [_ [Hl|(t & Ht & Hh)]]; [exists s; split; [apply calmly_refl|exact Hl]|].
  destruct (lookup id (stor (sy_w s))) eqn:E; [eapply handles_removable; eauto; congruence|].
  exists s. split; [apply calmly_refl|exact E].
Qed.

Lemma calmly_inv s s' : inv s -> calmly s s' -> inv s'.
Proof. intros I R. induction R; [exact I|]. eapply inv_step; eauto. Qed.
Lemma calmly_covered id s s' : inv s -> covered id s -> calmly s s' -> covered id s'.
Proof.
  intros I C R. induction R as [_|x a x' R IH Ha Hs _]; [exact C|]. eapply (covered_step id x); eauto; [eapply calmly_inv; eauto|now apply calm_spares].
Qed.
Lemma calmly_trans s1 s2 s3 : calmly s1 s2 -> calmly s2 s3 -> calmly s1 s3.
Proof. intros R1 R2. induction R2; [exact R1|]. eapply rc_step; eauto. Qed.
Lemma calmly_mails s s' id : calmly s s' -> In id (sy_mails s) -> In id (sy_mails s').
Proof.
  intros R H. induction R as [_|x a x' R IH Ha Hs _]; [exact H|].
  inversion Hs; subst; cbn [sy_mails] in *; auto. apply in_or_app. auto.
Qed.
