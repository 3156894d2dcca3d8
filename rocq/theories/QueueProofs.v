(** Invariants of the queue. *)
From Coq Require Import List Arith NArith Bool Lia.
Import ListNotations.
From Verif Require Import Queue SpecQueue.
Local Open Scope nat_scope.

(** ** Storage *)
Lemma lookup_del id j s : lookup id (del j s) = if j =? id then None else lookup id s.
Proof.
  induction s as [|[i x] s IH]; cbn [del lookup]; [now destruct (j =? id)|].
  destruct (Nat.eqb_spec i j) as [->|Hij].
  - rewrite IH. destruct (Nat.eqb_spec j id); reflexivity.
  - cbn [lookup]. destruct (Nat.eqb_spec i id) as [->|Hi]; [|exact IH].
    destruct (Nat.eqb_spec j id); [congruence|reflexivity].
Qed.
Lemma lookup_put id j x s : lookup id (put j x s) = if j =? id then Some x else lookup id s.
Proof. unfold put. cbn [lookup]. rewrite lookup_del. now destruct (j =? id). Qed.

Lemma queued_ids_in id s : lookup id s = Some Queued -> In id (queued_ids s).
Proof.
  unfold queued_ids. induction s as [|[i x] s IH]; cbn [lookup]; [discriminate|].
  destruct (Nat.eqb_spec i id) as [->|Hi].
  - intros [= ->]. cbn. now left.
  - intros H. cbn [filter snd map]. destruct x; cbn; auto.
Qed.
Lemma inflight_ids_in id tok s : lookup id s = Some (Inflight tok) -> In (id, tok) (inflight_ids s).
Proof.
  unfold inflight_ids. induction s as [|[i x] s IH]; cbn [lookup]; [discriminate|].
  destruct (Nat.eqb_spec i id) as [->|Hi].
  - intros [= ->]. cbn. now left.
  - intros H. cbn [flat_map]. apply in_or_app. right. auto.
Qed.

Lemma NoDup_app_intro {A} (a b : list A) : NoDup a -> NoDup b -> (forall x, In x a -> In x b -> False) -> NoDup (a ++ b).
Proof.
  intros Ha Hb H. induction Ha as [|x a Hx Ha IH]; [exact Hb|]. cbn. constructor.
  - intros Hi. apply in_app_or in Hi. destruct Hi as [Hi|Hi]; [contradiction|]. apply (H x); [now left|exact Hi].
  - apply IH. intros y Hy. apply H. now right.
Qed.

(** ** Histories *)
Lemma history_app n a b : history n (a ++ b) = history n a ++ history n b.
Proof. unfold history. now rewrite filter_app, map_app. Qed.
Lemma history_one n m e : history n [(m, e)] = if (m =? n) && visible e then [e] else [].
Proof. unfold history. cbn. now destruct ((m =? n) && visible e). Qed.
Lemma history_snoc n m e tr :
  history n (tr ++ [(m, e)]) = history n tr ++ (if (m =? n) && visible e then [e] else []).
Proof. now rewrite history_app, history_one. Qed.

Definition shows (e : event) : list event := if visible e then [e] else [].

(** ** Where a task is, given what it did *)
Definition opening (id : nat) (h : list event) : Prop := h = [] \/ h = [ERecover id true].
Inductive point (ms acc : list nat) : list event -> prog -> Prop :=
| pt_end h ok : life h -> point ms acc h (PEnd ok)
| pt_send h id : In id ms -> opening id h -> point ms acc h (send_queued_mail (Qm id))
| pt_send_goto h id : In id ms -> opening id h -> point ms acc h (PGoto (CSend (Qm id)))
| pt_get h id tok t : In id ms -> opening id h ->
    point ms acc (h ++ [EStart id (Some tok)]) (PGetMail (Im id tok t) (after_get (Im id tok t)))
| pt_transport h id tok t : In id ms -> opening id h ->
    point ms acc (h ++ [EStart id (Some tok); EGet id true]) (PTransport id (after_transport (Im id tok t)))
| pt_done h id tok t : In id ms -> opening id h -> In id acc ->
    point ms acc (h ++ [EStart id (Some tok); EGet id true; ESend id true]) (PSendDone (Im id tok t) PEnd)
| pt_cancel h id tok t : In id ms -> opening id h ->
    point ms acc (h ++ [EStart id (Some tok); EGet id true; ESend id false]) (PSendCancel (Im id tok t) after_cancel)
| pt_retry h id tok : In id ms -> opening id h ->
    point ms acc (h ++ [EStart id (Some tok); EGet id true; ESend id false; ECancel id true]) (PSpawn (CSend (Qm id)) (PEnd true))
| pt_wait id t tok : In id ms -> point ms acc [] (PDelay t (after_delay (Fm id tok)))
| pt_recover id tok : In id ms -> point ms acc [] (PCancelFound (Fm id tok) after_found)
| pt_run : point ms acc [] run
| pt_list t : point ms acc [] (PListQueue (fun l => PGoto (CQueueLoop t l)))
| pt_loop ids t l : point ms acc (map (fun id => ESpawn (CSend (Qm id))) ids) (queue_loop t l)
| pt_loop_goto ids t l : point ms acc (map (fun id => ESpawn (CSend (Qm id))) ids) (PGoto (CQueueLoop t l))
| pt_loop_spawn ids t l id : In id ms ->
    point ms acc (map (fun id => ESpawn (CSend (Qm id))) ids) (PSpawn (CSend (Qm id)) (PGoto (CQueueLoop t l)))
| pt_find ids t : point ms acc (map (fun id => ESpawn (CSend (Qm id))) ids) (PFindInflight (fun l => PGoto (CFindLoop t l)))
| pt_find_loop h t l : scan h -> point ms acc h (find_loop t l)
| pt_find_goto h t l : scan h -> point ms acc h (PGoto (CFindLoop t l))
| pt_find_spawn h t l id tok : In id ms -> scan h ->
    point ms acc (h ++ [EFound id]) (PSpawn (CFound t (Fm id tok)) (PGoto (CFindLoop t l))).

Lemma scan_ids ids : scan (map (fun id => ESpawn (CSend (Qm id))) ids).
Proof. rewrite <- (app_nil_r (map _ ids)). constructor. constructor. Qed.
Lemma scan_more h id t tok : scan h -> scan (h ++ [EFound id; ESpawn (CFound t (Fm id tok))]).
Proof. intros [ids w H]. rewrite <- app_assoc. constructor. now constructor. Qed.
Lemma scan_ids_snoc ids id : map (fun id => ESpawn (CSend (Qm id))) ids ++ [ESpawn (CSend (Qm id))]
  = map (fun id => ESpawn (CSend (Qm id))) (ids ++ [id]).
Proof. now rewrite map_app. Qed.
Lemma opening_life id h w : opening id h -> attempt id w -> life (h ++ w).
Proof. intros [-> | ->] H; [now apply lf_send with id|now apply lf_recovered]. Qed.

Lemma life_prefix_refl w : life w -> exists w', life w' /\ prefix w w'.
Proof. exists w. split; [assumption|exists []; now rewrite app_nil_r]. Qed.
Lemma point_prefix ms acc h p : point ms acc h p -> exists w, life w /\ prefix h w.
Proof.
  intros H. destruct H; try (exists []; split; [constructor|now exists []]); try (now apply life_prefix_refl).
  1,2: destruct H0 as [-> | ->]; [exists []; split; [constructor|now exists []]|];
    exists [ERecover id true; EStart id None]; (split; [apply lf_recovered; constructor|now exists [EStart id None]]).
  - exists (h ++ [EStart id (Some tok); EGet id false]). split; [eapply opening_life; [eassumption|constructor]|].
    exists [EGet id false]. now rewrite <- app_assoc.
  - exists (h ++ [EStart id (Some tok); EGet id true; ESend id true; EDone id true]).
    split; [eapply opening_life; [eassumption|constructor]|].
    exists [ESend id true; EDone id true]. now rewrite <- app_assoc.
  - exists (h ++ [EStart id (Some tok); EGet id true; ESend id true; EDone id true]).
    split; [eapply opening_life; [eassumption|constructor]|].
    exists [EDone id true]. now rewrite <- app_assoc.
  - exists (h ++ [EStart id (Some tok); EGet id true; ESend id false; ECancel id false]).
    split; [eapply opening_life; [eassumption|constructor]|].
    exists [ECancel id false]. now rewrite <- app_assoc.
  - exists (h ++ [EStart id (Some tok); EGet id true; ESend id false; ECancel id true; ESpawn (CSend (Qm id))]).
    split; [eapply opening_life; [eassumption|constructor]|].
    exists [ESpawn (CSend (Qm id))]. now rewrite <- app_assoc.
  - apply life_prefix_refl, lf_scan, scan_ids.
  - apply life_prefix_refl, lf_scan, scan_ids.
  - apply life_prefix_refl, lf_scan, scan_ids.
  - apply life_prefix_refl, lf_scan, scan_ids.
  - now apply life_prefix_refl, lf_scan.
  - now apply life_prefix_refl, lf_scan.
  - exists (h ++ [EFound id; ESpawn (CFound t (Fm id tok))]). split; [now apply lf_scan, scan_more|].
    exists [ESpawn (CFound t (Fm id tok))]. now rewrite <- app_assoc.
Qed.

Lemma point_mono ms acc ms' acc' h p : incl ms ms' -> incl acc acc' -> point ms acc h p -> point ms' acc' h p.
Proof. intros H1 H2 H. destruct H; constructor; auto. Qed.

(** ** Well-formed worlds and calls *)
Definition stored_known (ms : list nat) (w : world) : Prop := forall id, lookup id (stor w) <> None -> In id ms.
Definition kept (ms : list nat) (w : world) : Prop := forall id, In id ms -> lookup id (stor w) <> None \/ In id (accepted w).

Lemma call_point ms acc c :
  match c with CSend (Qm id) => In id ms | CFound _ f => In (fm_id f) ms | _ => False end -> point ms acc [] (body c).
Proof.
  destruct c as [|[id]|t [id tok]| |]; intros H; try (now destruct H).
  - apply pt_send; [exact H|now left].
  - now apply pt_wait.
Qed.

Lemma pstep_point ms w p lab ev p' cs w' h :
  stored_known ms w -> point ms (accepted w) h p -> pstep w p lab ev p' cs w' ->
  point ms (accepted w') (h ++ shows ev) p' /\ Forall (fun c => point ms (accepted w') [] (body c)) cs.
Proof.
  intros Hs Hp H.
  inversion Hp; subst; clear Hp; cbn in H; inversion H; subst; clear H; unfold shows; cbn [visible im_id fm_id im_tok fm_tok];
    rewrite ?app_nil_r; rewrite <- ?app_assoc; cbn [app]; (split; [|repeat constructor; try (now apply call_point)]).
  all: try (now constructor).
  all: try (apply pt_end; eapply opening_life; [eassumption|constructor]; fail).
  all: try (apply pt_end; constructor; apply scan_ids; fail).
  - apply pt_done; auto. cbn. apply in_or_app. right. now left.
  - assumption.
  - apply pt_send_goto; [assumption|now right].
  - apply (pt_loop_goto ms _ []).
  - apply pt_loop_spawn. apply Hs. congruence.
  - rewrite scan_ids_snoc. apply pt_loop_goto.
  - assumption.
  - apply pt_find_goto, scan_ids.
  - apply pt_find_spawn; [apply Hs; congruence|assumption].
  - apply pt_end. now apply lf_scan.
  - apply pt_end. now apply lf_scan.
  - apply pt_find_goto. now apply scan_more.
  - assumption.
Qed.

Lemma either_stor {A} (a b x : A) (P : A -> Prop) : either a b x -> P a -> P b -> P x.
Proof. intros [-> | ->]; auto. Qed.

Lemma pstep_world ms w p lab ev p' cs w' h :
  stored_known ms w -> kept ms w -> incl (accepted w) ms -> point ms (accepted w) h p -> pstep w p lab ev p' cs w' ->
  incl (accepted w) (accepted w') /\ incl (accepted w') ms /\ stored_known ms w' /\ kept ms w' /\ now w' = now w
  /\ fresh w <= fresh w'.
Proof.
  intros Hs Hk Ha Hp H.
  assert (Hset : forall s', (forall i, lookup i s' <> None <-> lookup i (stor w) <> None) ->
    (forall i, lookup i s' <> None -> In i ms) /\ forall i, In i ms -> lookup i s' <> None \/ In i (accepted w)).
  { intros s' E. split; intros i Hi; [apply Hs, E, Hi|]. destruct (Hk i Hi); [left; now apply E|now right]. }
  assert (Hput : forall id x, lookup id (stor w) <> None -> forall i, lookup i (put id x (stor w)) <> None <-> lookup i (stor w) <> None).
  { intros id x Hx i. rewrite lookup_put. destruct (Nat.eqb_spec id i) as [->|]; [|reflexivity]. split; [auto|discriminate]. }
  assert (Hdel : forall id, In id (accepted w) ->
    (forall i, lookup i (del id (stor w)) <> None -> In i ms) /\
    forall i, In i ms -> lookup i (del id (stor w)) <> None \/ In i (accepted w)).
  { intros id Hid. split; intros i Hi; rewrite lookup_del in *; destruct (Nat.eqb_spec id i) as [->|].
    - congruence.
    - now apply Hs.
    - now right.
    - now apply Hk. }
  unfold stored_known, kept in *.
  inversion H; subst; clear H; cbn [accepted stor now fresh set_stor];
    try (repeat split; auto using incl_refl; fail).
  - (* send_start *)
    destruct (Hset (put id (Inflight (fresh w)) (stor w))) as [K1 K2]; [apply Hput; congruence|].
    repeat split; auto using incl_refl.
  - assert (E : forall i, lookup i s' <> None <-> lookup i (stor w) <> None).
    { apply (either_stor _ _ _ (fun s' => forall i, lookup i s' <> None <-> lookup i (stor w) <> None) H0); [reflexivity|].
      destruct (lookup id (stor w)) as [[|]|] eqn:El; try reflexivity. apply Hput. congruence. }
    destruct (Hset _ E) as [K1 K2]. repeat split; auto using incl_refl.
  - (* transport *)
    repeat split; auto using incl_appl, incl_refl.
    + inversion Hp; subst. apply incl_app; [exact Ha|]. intros x [<-|[]]. assumption.
    + intros i Hi. destruct (Hk i Hi); [now left|right]. apply in_or_app. now left.
  - (* send_done *)
    inversion Hp; subst. destruct (Hdel id) as [K1 K2]; [assumption|]. cbn. repeat split; auto using incl_refl.
  - inversion Hp; subst.
    assert (E : (forall i, lookup i s' <> None -> In i ms) /\ forall i, In i ms -> lookup i s' <> None \/ In i (accepted w)).
    { apply (either_stor _ _ _ (fun s' => (forall i, lookup i s' <> None -> In i ms)
        /\ forall i, In i ms -> lookup i s' <> None \/ In i (accepted w)) H0); [auto|].
      cbn. destruct (lookup id (stor w)) as [[|t']|]; auto. destruct (t' =? tok); auto. }
    destruct E as [K1 K2]. repeat split; auto using incl_refl.
  - (* send_cancel *)
    destruct (Hset (put (im_id i) Queued (stor w))) as [K1 K2]; [apply Hput; congruence|].
    repeat split; auto using incl_refl.
  - assert (E : forall j, lookup j s' <> None <-> lookup j (stor w) <> None).
    { apply (either_stor _ _ _ (fun s' => forall i, lookup i s' <> None <-> lookup i (stor w) <> None) H0); [reflexivity|].
      destruct (lookup (im_id i) (stor w)) as [[|t']|] eqn:El; try reflexivity. destruct (t' =? im_tok i); [|reflexivity].
      apply Hput. congruence. }
    destruct (Hset _ E) as [K1 K2]. repeat split; auto using incl_refl.
  - (* cancel_found_inflight *)
    destruct (Hset (put (fm_id f) Queued (stor w))) as [K1 K2]; [apply Hput; congruence|].
    repeat split; auto using incl_refl.
  - assert (E : forall j, lookup j s' <> None <-> lookup j (stor w) <> None).
    { apply (either_stor _ _ _ (fun s' => forall i, lookup i s' <> None <-> lookup i (stor w) <> None) H0); [reflexivity|].
      destruct (lookup (fm_id f) (stor w)) as [[|t']|] eqn:El; try reflexivity. destruct (t' =? fm_tok f); [|reflexivity].
      apply Hput. congruence. }
    destruct (Hset _ E) as [K1 K2]. repeat split; auto using incl_refl.
Qed.

(** ** The system invariant *)
Record inv (s : sys) : Prop := Inv {
  iv_nodup : NoDup (map t_id (sy_tasks s));
  iv_below : Forall (fun t => t_id t < sy_next s) (sy_tasks s);
  iv_points : Forall (fun t => point (sy_mails s) (accepted (sy_w s)) (history (t_id t) (sy_trace s)) (t_prog t)) (sy_tasks s);
  iv_unused : forall n, sy_next s <= n -> history n (sy_trace s) = [];
  iv_lives : forall n, exists w, life w /\ prefix (history n (sy_trace s)) w;
  iv_stored : stored_known (sy_mails s) (sy_w s);
  iv_kept : kept (sy_mails s) (sy_w s);
  iv_accepted : incl (accepted (sy_w s)) (sy_mails s)
}.

Lemma number_fst {A} n (l : list A) : map fst (number n l) = seq n (length l).
Proof. revert n. induction l as [|x l IH]; intros n; cbn; [reflexivity|]. now rewrite IH. Qed.
Lemma new_tasks_ids n inst cs : map t_id (new_tasks n inst cs) = seq n (length cs).
Proof. unfold new_tasks. rewrite map_map. cbn. apply number_fst. Qed.
Lemma new_tasks_in t n inst cs : In t (new_tasks n inst cs) ->
  n <= t_id t < n + length cs /\ exists c, In c cs /\ t_prog t = body c /\ t_inst t = inst.
Proof.
  intros H. split.
  - apply (in_map t_id) in H. rewrite new_tasks_ids in H. apply in_seq in H. lia.
  - unfold new_tasks in H. apply in_map_iff in H. destruct H as ([m c] & <- & H). exists c. cbn. repeat split.
    clear -H. revert n H. induction cs as [|c' cs IH]; intros n H; [destruct H|]. destruct H as [[= <- <-]|H]; [now left|right; eauto].
Qed.

Lemma in_mid {A} (x y : A) a b : In x (a ++ y :: b) <-> In x a \/ x = y \/ In x b.
Proof. rewrite in_app_iff. cbn. intuition. Qed.

Lemma nodup_mid (n : nat) a b : NoDup (a ++ n :: b) -> ~ In n a /\ ~ In n b.
Proof. intros H. apply NoDup_remove in H. destruct H as [_ H]. rewrite in_app_iff in H. tauto. Qed.

Lemma inv_step s act s' : inv s -> sstep s act s' -> inv s'.
Proof.
  intros [I1 I2 I3 I4 I5 I6 I7 I8] H. inversion H; subst; cbn [sy_w sy_tasks sy_next sy_mails sy_trace] in *.
  - (* a task *)
    rewrite map_app in I1. cbn [map t_id] in I1. destruct (nodup_mid _ _ _ I1) as [Na Nb].
    rewrite Forall_app in I2, I3. destruct I2 as [I2a I2b]. destruct I3 as [I3a I3b].
    inversion I2b as [|? ? I2n I2c]; subst. inversion I3b as [|? ? I3n I3c]; subst. cbn [t_id t_prog] in *.
    destruct (pstep_point _ _ _ _ _ _ _ _ _ I6 I3n H0) as [P1 P2].
    destruct (pstep_world _ _ _ _ _ _ _ _ _ I6 I7 I8 I3n H0) as (W1 & W2 & W3 & W4 & W5 & W6).
    assert (Hn : history n (tr ++ [(n, ev)]) = history n tr ++ shows ev).
    { rewrite history_snoc, Nat.eqb_refl. reflexivity. }
    assert (Ho : forall m, m <> n -> history m (tr ++ [(n, ev)]) = history m tr).
    { intros m Hm. rewrite history_snoc. destruct (Nat.eqb_spec n m); [congruence|]. cbn. apply app_nil_r. }
    assert (Hold : forall l, ~ In n (map t_id l) ->
      Forall (fun t => point ms (accepted w) (history (t_id t) tr) (t_prog t)) l ->
      Forall (fun t => point ms (accepted w') (history (t_id t) (tr ++ [(n, ev)])) (t_prog t)) l).
    { intros l Nl F. rewrite Forall_forall in *. intros t Ht. rewrite Ho.
      - eapply point_mono; [apply incl_refl|exact W1|auto].
      - intros E. apply Nl. rewrite <- E. now apply in_map. }
    constructor; cbn [sy_w sy_tasks sy_next sy_mails sy_trace]; auto.
    + rewrite map_app. cbn [map t_id]. rewrite map_app, new_tasks_ids.
      replace (map t_id a ++ n :: map t_id b ++ seq nx (length cs))
        with ((map t_id a ++ n :: map t_id b) ++ seq nx (length cs)) by now rewrite <- app_assoc.
      apply NoDup_app_intro; auto using seq_NoDup. intros x Hx Hy. apply in_seq in Hy.
      apply in_mid in Hx. rewrite Forall_forall in I2a, I2c.
      destruct Hx as [Hx|[->|Hx]]; [|lia|]; apply in_map_iff in Hx; destruct Hx as (t & <- & Ht);
        [apply I2a in Ht|apply I2c in Ht]; lia.
    + rewrite Forall_forall in *. intros t Ht. rewrite in_mid, in_app_iff in Ht.
      destruct Ht as [Ht|[->|[Ht|Ht]]]; cbn [t_id]; try lia.
      * apply I2a in Ht; lia.
      * apply I2c in Ht; lia.
      * apply new_tasks_in in Ht. lia.
    + rewrite Forall_app. split; [now apply Hold|]. constructor; [cbn [t_id t_prog]; now rewrite Hn|].
      rewrite Forall_app. split; [now apply Hold|]. rewrite Forall_forall. intros t Ht.
      apply new_tasks_in in Ht. destruct Ht as (Hb & c & Hc & -> & _). rewrite Ho by lia.
      rewrite I4 by lia. rewrite Forall_forall in P2. now apply P2.
    + intros m Hm. rewrite Ho by lia. apply I4. lia.
    + intros m. destruct (Nat.eq_dec m n) as [->|Hm]; [|rewrite Ho by assumption; apply I5].
      rewrite Hn. eapply point_prefix. exact P1.
  - (* enqueue *)
    constructor; cbn [sy_w sy_tasks sy_next sy_mails sy_trace set_stor accepted stor]; auto.
    + rewrite Forall_forall in *. intros t Ht. eapply point_mono; [apply incl_appl, incl_refl|apply incl_refl|auto].
    + intros i Hi. cbn [stor set_stor] in Hi. rewrite lookup_put in Hi. apply in_or_app.
      destruct (Nat.eqb_spec id i) as [->|]; [right; now left|left; now apply I6].
    + intros i Hi. cbn [stor set_stor accepted]. rewrite lookup_put. destruct (Nat.eqb_spec id i) as [->|Hn]; [left; discriminate|].
      apply in_app_or in Hi. destruct Hi as [Hi|[Hi|[]]]; [now apply I7|congruence].
    + now apply incl_appl.
  - constructor; cbn [sy_w sy_tasks sy_next sy_mails sy_trace accepted stor]; auto.
  - (* boot *)
    constructor; cbn [sy_w sy_tasks sy_next sy_mails sy_trace accepted stor]; auto.
    + rewrite map_app. cbn. apply NoDup_app_intro; auto; [repeat constructor; intros []|].
      intros x Hx [<-|[]]. apply in_map_iff in Hx. destruct Hx as (t & E & Ht). rewrite Forall_forall in I2. apply I2 in Ht. lia.
    + rewrite Forall_app. split; [eapply Forall_impl; [|exact I2]; cbn; intros; lia|]. constructor; [cbn; lia|constructor].
    + rewrite Forall_app. split; [assumption|]. constructor; [|constructor]. cbn [t_id t_prog]. rewrite I4 by lia. constructor.
    + intros m Hm. apply I4. lia.
  - (* crash *)
    constructor; cbn [sy_w sy_tasks sy_next sy_mails sy_trace accepted stor]; auto.
    + clear -I1. induction ts as [|t ts IH]; [exact I1|]. inversion I1; subst. cbn. destruct (negb _); cbn; auto. constructor; auto.
      intros Hx. apply in_map_iff in Hx. destruct Hx as (t' & E & Ht). apply filter_In in Ht. destruct Ht as [Ht _].
      apply H1. rewrite <- E. now apply in_map.
    + rewrite Forall_forall in *. intros t Ht. apply filter_In in Ht. now apply I2.
    + rewrite Forall_forall in *. intros t Ht. apply filter_In in Ht. now apply I3.
Qed.
Lemma inv0 t0 : inv (sys0 t0).
Proof.
  constructor.
  - constructor.
  - constructor.
  - constructor.
  - reflexivity.
  - intros n. exists []. split; [constructor|now exists []].
  - intros i Hi. now cbn in Hi.
  - intros i [].
  - intros i [].
Qed.
Lemma reach_inv A P t0 s : reach A P (sys0 t0) s -> inv s.
Proof. induction 1; [apply inv0|eapply inv_step; eauto]. Qed.
