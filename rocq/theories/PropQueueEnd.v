(** C68: what the result of the futures of the queue tells. *)
From Coq Require Import List Arith NArith Bool Lia.
Import ListNotations.
From Verif Require Import Queue SpecQueue SpecQueueEnd QueueProofs QueueExec PropQueue.
Local Open Scope nat_scope.

(** ** The result *)
Lemma pstep_result ms acc h w p lab ev p' cs w' : point ms acc h p -> pstep w p lab ev p' cs w' ->
  if (match lab with Failure => true | Normal => false end) || error_answer ev then p' = PEnd false else p' <> PEnd false.
Proof.
  intros Hp H. inversion Hp; subst; clear Hp; cbn in H; inversion H; subst; clear H; cbn; try discriminate; try reflexivity.
Qed.

Definition marked (n : nat) (b : bool) (s : sys) : Prop :=
  forall t, In t (sy_tasks s) -> t_id t = n -> if b then t_prog t = PEnd false else t_prog t <> PEnd false.

Lemma errs_task w a n inst p b nx ms tr lab ev p' cs w' m s' :
  s' = Sys w' (a ++ Task n inst p' :: b ++ new_tasks nx inst cs) (nx + length cs) ms (tr ++ [(n, ev)]) ->
  errs m (Sys w (a ++ Task n inst p :: b) nx ms tr) (AStep lab) s' <->
  m = n /\ (match lab with Failure => true | Normal => false end) || error_answer ev = true.
Proof.
  intros ->. unfold errs, does. cbn [sy_trace]. split.
  - intros (e & E & K). apply app_inv_head in E. injection E as -> ->. split; [reflexivity|].
    destruct K as [[= ->]| ->]; [reflexivity|now rewrite orb_true_r].
  - intros [-> K]. exists ev. split; [reflexivity|]. destruct lab; [right; exact K|now left].
Qed.
Lemma errs_other m s act s' : sy_trace s' = sy_trace s -> ~ errs m s act s'.
Proof.
  intros E (ev & D & _). unfold does in D. rewrite E in D. apply (f_equal (@length _)) in D. rewrite app_length in D. cbn in D. lia.
Qed.

Lemma body_live ms acc c : point ms acc [] (body c) -> body c <> PEnd false.
Proof. destruct c as [|[i]|t f| |]; intros _; discriminate. Qed.

Lemma marked_step n b s act s' : inv s -> marked n b s -> (b = true -> n < sy_next s) -> sstep s act s' ->
  (~ errs n s act s' -> marked n b s') /\ (errs n s act s' -> marked n true s' /\ n < sy_next s').
Proof.
  intros I M Hb H. inversion H; subst; cbn [sy_w sy_tasks sy_next sy_mails sy_trace] in *.
  - pose proof (iv_nodup _ I) as ND. cbn [sy_tasks] in ND. rewrite map_app in ND. cbn [map t_id] in ND.
    destruct (nodup_mid _ _ _ ND) as [Na Nb].
    pose proof (iv_points _ I) as Hp. rewrite Forall_forall in Hp. cbn [sy_tasks sy_mails sy_w sy_trace] in Hp.
    assert (Ht : In (Task n0 inst p) (a ++ Task n0 inst p :: b0)) by (apply in_mid; auto).
    pose proof (iv_below _ I) as Hl. rewrite Forall_forall in Hl. pose proof (Hl _ Ht) as Hn. cbn [t_id sy_next] in Hn.
    pose proof (pstep_result _ _ _ _ _ _ _ _ _ _ (Hp _ Ht) H0) as R. cbn [t_id t_prog] in R.
    rewrite (errs_task w a n0 inst p b0 nx ms tr lab ev p' cs w' n _ eq_refl). clear H.
    destruct (Nat.eq_dec n n0) as [-> |Hne].
    + destruct ((match lab with Failure => true | Normal => false end) || error_answer ev) eqn:Eb.
      * split; [intros K; destruct K; auto|]. intros _. split; [|lia]. intros t Hi Et. cbn [sy_tasks] in Hi.
        rewrite in_mid, in_app_iff in Hi. destruct Hi as [Hi|[-> |[Hi|Hi]]]; [|exact R| |].
        -- destruct Na. rewrite <- Et. now apply in_map.
        -- destruct Nb. rewrite <- Et. now apply in_map.
        -- apply new_tasks_in in Hi. lia.
      * split; [|intros [_ K]; discriminate]. intros _ t Hi Et. cbn [sy_tasks] in Hi.
        assert (B : b = false).
        { destruct b; [|reflexivity]. pose proof (M _ Ht eq_refl) as E. cbn [t_prog] in E. subst p. inversion H0. }
        subst b. rewrite in_mid, in_app_iff in Hi. destruct Hi as [Hi|[-> |[Hi|Hi]]]; [|exact R| |].
        -- destruct Na. rewrite <- Et. now apply in_map.
        -- destruct Nb. rewrite <- Et. now apply in_map.
        -- apply new_tasks_in in Hi. lia.
    + split; [|intros [K _]; contradiction]. intros _ t Hi Et. cbn [sy_tasks] in Hi.
      rewrite in_mid, in_app_iff in Hi. destruct Hi as [Hi|[-> |[Hi|Hi]]].
      * apply M; [apply in_mid; auto|exact Et].
      * cbn in Et. congruence.
      * apply M; [apply in_mid; auto|exact Et].
      * apply new_tasks_in in Hi. destruct Hi as (Hk & c & _ & E & _). destruct b; [specialize (Hb eq_refl); lia|].
        rewrite E. destruct c as [|[i]|? ?| |]; discriminate.
  - split; [intros _; exact M|]. intros K. now apply errs_other in K.
  - split; [intros _; exact M|]. intros K. now apply errs_other in K.
  - split; [|intros K; now apply errs_other in K]. intros _ t Hi Et. cbn [sy_tasks] in Hi. apply in_app_or in Hi.
    destruct Hi as [Hi|[<-|[]]]; [now apply M|]. cbn [t_id] in Et. destruct b; [specialize (Hb eq_refl); lia|discriminate].
  - split; [|intros K; now apply errs_other in K]. intros _ t Hi Et. cbn [sy_tasks] in Hi. apply filter_In in Hi. now apply M.
Qed.
Lemma next_mono s act s' : sstep s act s' -> sy_next s <= sy_next s'.
Proof. intros H. inversion H; subst; cbn; lia. Qed.
Lemma watched_marked n t0 b s : watched n (sys0 t0) b s -> inv s /\ marked n b s /\ (b = true -> n < sy_next s).
Proof.
  induction 1 as [|b s act s' W IH H K|b s act s' W IH H K].
  - split; [apply inv0|]. split; [intros t []|discriminate].
  - destruct IH as (I & M & B). split; [eapply inv_step; eauto|]. destruct (marked_step _ _ _ _ _ I M B H) as [S1 _].
    split; [now apply S1|]. intros E. pose proof (next_mono _ _ _ H). specialize (B E). lia.
  - destruct IH as (I & M & B). split; [eapply inv_step; eauto|]. destruct (marked_step _ _ _ _ _ I M B H) as [_ S2].
    destruct (S2 K). auto.
Qed.

(** The future of a task completes with [Err] exactly if one of its operations failed. *)
Theorem C68_result_tells : forall t0 n failed s ok, watched n (sys0 t0) failed s -> completed n ok s -> ok = negb failed.
Proof.
  intros t0 n failed s ok W (t & Ht & En & Ep). destruct (watched_marked _ _ _ _ W) as (_ & M & _).
  specialize (M t Ht En). rewrite Ep in M. destruct failed, ok; cbn in *; congruence.
Qed.
(** After a failure the task does nothing more. *)
Theorem C68_failure_is_the_end : forall t0 n s act s' ev, watched n (sys0 t0) true s -> sstep s act s' -> ~ does s s' n ev.
Proof.
  intros t0 n s act s' ev W H D. destruct (watched_marked _ _ _ _ W) as (_ & M & _).
  inversion H; subst; unfold does in D; cbn [sy_trace] in D;
    try (apply (f_equal (@length _)) in D; rewrite app_length in D; cbn in D; lia).
  apply app_inv_head in D. injection D as -> ->.
  assert (Ht : In (Task n inst p) (a ++ Task n inst p :: b)) by (apply in_mid; auto).
  pose proof (M _ Ht eq_refl) as E. cbn [t_prog] in E. subst p. inversion H0.
Qed.
(** Every execution can be watched. *)
Theorem C68_always_watched : forall n t0 acts s, steps (sys0 t0) acts s -> exists failed, watched n (sys0 t0) failed s.
Proof.
  intros n t0 acts s H. remember (sys0 t0) as s0 eqn:E. induction H as [s|s acts s1 act s2 H IH Hs]; [exists false; constructor|].
  destruct (IH E) as [b W]. inversion Hs; subst.
  - destruct (Nat.eq_dec n n0) as [-> |Hne].
    + destruct ((match lab with Failure => true | Normal => false end) || error_answer ev) eqn:Eb.
      * exists true. eapply wt_error; [exact W|exact Hs|]. apply (errs_task _ _ _ _ _ _ _ _ _ _ _ _ _ _ _ _ eq_refl). auto.
      * exists b. eapply wt_fine; [exact W|exact Hs|]. intros K.
        apply (errs_task _ _ _ _ _ _ _ _ _ _ _ _ _ _ _ _ eq_refl) in K. rewrite Eb in K. destruct K. discriminate.
    + exists b. eapply wt_fine; [exact W|exact Hs|]. intros K.
      apply (errs_task _ _ _ _ _ _ _ _ _ _ _ _ _ _ _ _ eq_refl) in K. now destruct K.
  - exists b. eapply wt_fine; [exact W|exact Hs|]. now apply errs_other.
  - exists b. eapply wt_fine; [exact W|exact Hs|]. now apply errs_other.
  - exists b. eapply wt_fine; [exact W|exact Hs|]. now apply errs_other.
  - exists b. eapply wt_fine; [exact W|exact Hs|]. now apply errs_other.
Qed.

(** ** [Ok] from [run] means: every mail has been taken up *)
Definition took (id : nat) (h : list event) : Prop :=
  In (ESpawn (CSend (Qm id))) h \/ exists t tok, In (ESpawn (CFound t (Fm id tok))) h.
Lemma took_app id h h' : took id h -> took id (h ++ h').
Proof. intros [H|(t & tok & H)]; [left|right; exists t, tok]; apply in_or_app; now left. Qed.

Inductive scans (id : nat) (x : status) (h : list event) : prog -> Prop :=
| sc_run : scans id x h run
| sc_list t : scans id x h (PListQueue (fun l => PGoto (CQueueLoop t l)))
| sc_loop t l : (x = Queued -> In id (li_must l)) -> (In id (li_seen l) -> took id h) -> scans id x h (queue_loop t l)
| sc_goto t l : (x = Queued -> In id (li_must l)) -> (In id (li_seen l) -> took id h) -> scans id x h (PGoto (CQueueLoop t l))
| sc_spawn t l j : (x = Queued -> In id (li_must l)) -> (In id (li_seen l) -> j = id \/ took id h) ->
    scans id x h (PSpawn (CSend (Qm j)) (PGoto (CQueueLoop t l)))
| sc_find t : (x = Queued -> took id h) -> scans id x h (PFindInflight (fun l => PGoto (CFindLoop t l)))
| sc_floop t l : (x = Queued -> took id h) -> (forall k, x = Inflight k -> In (id, k) (li_must l)) ->
    (forall k, In (id, k) (li_seen l) -> took id h) -> scans id x h (find_loop t l)
| sc_fgoto t l : (x = Queued -> took id h) -> (forall k, x = Inflight k -> In (id, k) (li_must l)) ->
    (forall k, In (id, k) (li_seen l) -> took id h) -> scans id x h (PGoto (CFindLoop t l))
| sc_fspawn t l j k : (x = Queued -> took id h) -> (forall k, x = Inflight k -> In (id, k) (li_must l)) ->
    (forall k, In (id, k) (li_seen l) -> j = id \/ took id h) ->
    scans id x h (PSpawn (CFound t (Fm j k)) (PGoto (CFindLoop t l)))
| sc_ok : took id h -> scans id x h (PEnd true)
| sc_err : scans id x h (PEnd false).

Lemma pstep_scans id x h w p lab ev p' cs w' : lookup id (stor w) = Some x -> scans id x h p -> pstep w p lab ev p' cs w' ->
  scans id x (h ++ shows ev) p'.
Proof.
  intros Hl Hp H. inversion Hp; subst; clear Hp; cbn in H; inversion H; subst; clear H; unfold shows; cbn [visible]; rewrite ?app_nil_r;
    try (now constructor).
  - apply sc_goto; cbn; [|easy]. intros ->. now apply queued_ids_in.
  - apply sc_spawn; cbn; [easy|]. intros [-> |K]; auto.
  - constructor. intros ->. auto.
  - apply sc_goto; [easy|]. intros K. destruct (H1 K) as [-> |T]; [left; apply in_or_app; right; now left|now apply took_app].
  - apply sc_fgoto; cbn; [easy| |easy]. intros k ->. now apply inflight_ids_in.
  - apply sc_fspawn; cbn; [intros E; now apply took_app, H0|easy|]. intros k [[= -> ->]|K]; [now left|right; apply took_app; eauto].
  - destruct x as [|k]; [apply sc_ok; auto|]. apply sc_ok. eapply H2. match goal with X : forall id tok, In (id, tok) _ -> _ -> _ |- _ => apply X; eauto end.
  - apply sc_fgoto; [intros E; now apply took_app, H0|easy|]. intros k' K. destruct (H2 k' K) as [-> |T]; [|now apply took_app].
    right. exists t, k. apply in_or_app. right. now left.
Qed.

Lemma lookup_kept id s act s' : sstep s act s' -> lookup id (stor (sy_w s)) <> None ->
  (forall n ev, does s s' n ev -> about ev <> Some id) -> lookup id (stor (sy_w s')) = lookup id (stor (sy_w s)).
Proof.
  intros H Hi Ha. inversion H; subst; cbn [sy_w stor set_stor] in *.
  - specialize (Ha n ev eq_refl). clear H. inversion H0; subst; cbn [stor set_stor] in *; try reflexivity; cbn [about] in Ha.
    all: try (rewrite lookup_put; destruct (Nat.eqb_spec id0 id); [subst; now destruct Ha|reflexivity]).
    all: try (rewrite lookup_put; destruct (Nat.eqb_spec (im_id i) id); [subst; now destruct Ha|reflexivity]).
    all: try (rewrite lookup_put; destruct (Nat.eqb_spec (fm_id f) id); [subst; now destruct Ha|reflexivity]).
    all: try (rewrite lookup_del; destruct (Nat.eqb_spec (im_id i) id); [subst; now destruct Ha|reflexivity]).
    all: match goal with X : either _ _ _ |- _ => destruct X as [-> | ->]; [reflexivity|] end.
    + destruct (lookup id0 (stor w)) as [[|]|]; try reflexivity. rewrite lookup_put.
      destruct (Nat.eqb_spec id0 id); [subst; now destruct Ha|reflexivity].
    + destruct (lookup (im_id i) (stor w)) as [[|t']|]; try reflexivity. destruct (t' =? im_tok i); [|reflexivity].
      rewrite lookup_del. destruct (Nat.eqb_spec (im_id i) id); [subst; now destruct Ha|reflexivity].
    + destruct (lookup (im_id i) (stor w)) as [[|t']|]; try reflexivity. destruct (t' =? im_tok i); [|reflexivity].
      rewrite lookup_put. destruct (Nat.eqb_spec (im_id i) id); [subst; now destruct Ha|reflexivity].
    + destruct (lookup (fm_id f) (stor w)) as [[|t']|]; try reflexivity. destruct (t' =? fm_tok f); [|reflexivity].
      rewrite lookup_put. destruct (Nat.eqb_spec (fm_id f) id); [subst; now destruct Ha|reflexivity].
  - rewrite lookup_put. destruct (Nat.eqb_spec id0 id); [subst; contradiction|reflexivity].
  - reflexivity.
  - reflexivity.
  - reflexivity.
Qed.

Lemma trace_grows s act s' : sstep s act s' -> sy_trace s' = sy_trace s \/ exists n ev, does s s' n ev.
Proof. intros H. inversion H; subst; cbn; auto. right. now exists n, ev. Qed.
Lemma steps_trace s acts s' : steps s acts s' -> exists tr, sy_trace s' = sy_trace s ++ tr.
Proof.
  induction 1 as [s|s acts s1 act s2 H (tr & E) Hs]; [exists []; now rewrite app_nil_r|].
  destruct (trace_grows _ _ _ Hs) as [-> |(n & ev & ->)]; [eauto|]. exists (tr ++ [(n, ev)]). rewrite E. now rewrite app_assoc.
Qed.

Lemma scans_step n id x s act s' : inv s -> n < sy_next s -> sstep s act s' -> lookup id (stor (sy_w s)) = Some x ->
  (forall t, In t (sy_tasks s) -> t_id t = n -> scans id x (history n (sy_trace s)) (t_prog t)) ->
  forall t, In t (sy_tasks s') -> t_id t = n -> scans id x (history n (sy_trace s')) (t_prog t).
Proof.
  intros I Hn H Hl M. inversion H; subst; cbn [sy_w sy_tasks sy_next sy_mails sy_trace] in *.
  - pose proof (iv_nodup _ I) as ND. cbn [sy_tasks] in ND. rewrite map_app in ND. cbn [map t_id] in ND.
    destruct (nodup_mid _ _ _ ND) as [Na Nb]. intros t Hi Et. rewrite in_mid, in_app_iff in Hi.
    assert (Old : In t (a ++ Task n0 inst p :: b) -> t_id t <> n0 -> scans id x (history n (tr ++ [(n0, ev)])) (t_prog t)).
    { intros Ho Hne. rewrite history_snoc. destruct (Nat.eqb_spec n0 n); [congruence|]. cbn [andb]. rewrite app_nil_r. now apply M. }
    destruct Hi as [Hi|[-> |[Hi|Hi]]].
    + apply Old; [apply in_mid; auto|]. intros E. apply Na. rewrite <- E. now apply in_map.
    + cbn [t_id] in Et. subst n0. cbn [t_prog]. rewrite history_snoc, Nat.eqb_refl. cbn [andb].
      change (if visible ev then [ev] else []) with (shows ev). eapply pstep_scans; [exact Hl| |exact H0].
      apply (M (Task n inst p)); [apply in_mid; auto|reflexivity].
    + apply Old; [apply in_mid; auto|]. intros E. apply Nb. rewrite <- E. now apply in_map.
    + apply new_tasks_in in Hi. lia.
  - exact M.
  - exact M.
  - intros t Hi Et. apply in_app_or in Hi. destruct Hi as [Hi|[<-|[]]]; [now apply M|cbn in Et; lia].
  - intros t Hi Et. apply filter_In in Hi. now apply M.
Qed.

(** If the future of [run] completes with [Ok], a task has been started for every mail
    stored when it began, unless somebody did something with the mail meanwhile. *)
Theorem C68_ok_means_all_taken_up : forall t0 acts s1 inst s2 acts' s3 id,
  steps (sys0 t0) acts s1 -> sstep s1 (ABoot inst) s2 -> steps s2 acts' s3 -> completed (sy_next s1) true s3 ->
  lookup id (stor (sy_w s1)) <> None -> untouched id s1 s3 -> taken_up (sy_next s1) id s3.
Proof.
  intros t0 acts s1 inst s2 acts' s3 id H1 Hb H2 (t & Ht & Et & Ep) Hi U.
  assert (I1 : inv s1).
  { clear -H1. remember (sys0 t0) as s0 eqn:E. induction H1 as [s|s acts s1 act s2 H IH Hs]; [subst; apply inv0|]. eapply inv_step; eauto. }
  assert (I2 : inv s2) by (eapply inv_step; eauto).
  destruct (lookup id (stor (sy_w s1))) as [x|] eqn:El; [clear Hi|now destruct Hi].
  assert (K : inv s3 /\ sy_next s1 < sy_next s3 /\ lookup id (stor (sy_w s3)) = Some x
    /\ forall t, In t (sy_tasks s3) -> t_id t = sy_next s1 -> scans id x (history (sy_next s1) (sy_trace s3)) (t_prog t)).
  { clear t Ht Et Ep. induction H2 as [s|s acts' s3 act s4 H IH Hs].
    - inversion Hb; subst. split; [exact I2|]. cbn [sy_next sy_w sy_tasks sy_trace] in *. split; [lia|]. split; [exact El|].
      intros t Ht Et. apply in_app_or in Ht. destruct Ht as [Ht|[<-|[]]]; [|constructor].
      pose proof (iv_below _ I1) as F. rewrite Forall_forall in F. apply F in Ht. cbn in Ht. lia.
    - destruct U as (tr & E & Ua).
      assert (U3 : untouched id s1 s3 /\ forall n ev, does s3 s4 n ev -> about ev <> Some id).
      { destruct (steps_trace _ _ _ H) as (tr' & E'). assert (E2 : sy_trace s = sy_trace s1) by (inversion Hb; reflexivity).
        rewrite E2 in E'. split.
        - exists tr'. split; [exact E'|]. intros n ev Hn. destruct (trace_grows _ _ _ Hs) as [Eg|(n' & ev' & Eg)].
          + rewrite Eg, E' in E. apply app_inv_head in E. subst tr'. eauto.
          + unfold does in Eg. rewrite Eg, E', <- app_assoc in E. apply app_inv_head in E. apply (Ua n). rewrite <- E. apply in_or_app. now left.
        - intros n ev D. unfold does in D. rewrite D, E', <- app_assoc in E. apply app_inv_head in E. apply (Ua n). rewrite <- E.
          apply in_or_app. right. now left. }
      destruct U3 as [U3 Ud]. destruct (IH Hb U3 I2) as (I3 & Hn & L3 & M3). split; [eapply inv_step; eauto|].
      pose proof (next_mono _ _ _ Hs) as Hm. split; [lia|].
      split; [rewrite (lookup_kept id _ _ _ Hs); [exact L3|congruence|exact Ud]|]. eapply scans_step; eauto. }
  destruct K as (_ & _ & _ & M). specialize (M t Ht Et). rewrite Ep in M. inversion M as [| | | | | | | | |T|]; subst.
  assert (Hh : forall e, In e (history (sy_next s1) (sy_trace s3)) -> In (sy_next s1, e) (sy_trace s3)).
  { intros e He. unfold history in He. apply in_map_iff in He. destruct He as ([n e'] & <- & He). apply filter_In in He. destruct He as [He Hf].
    cbn in Hf |- *. apply andb_prop in Hf. destruct Hf as [Hf _]. apply Nat.eqb_eq in Hf. now subst. }
  destruct T as [T|(t' & tok & T)]; [left|right; exists t', tok]; now apply Hh.
Qed.

(** One execution with both: the scan (task 0) and the retry (task 2) complete with [Ok], and the
    refused attempt (task 1) too; then mail 8 cannot be read: task 4 completes with [Err]. *)
Definition watch_one (n : nat) (s : sys) (act : action) (s' : sys) : bool :=
  match skipn (length (sy_trace s)) (sy_trace s') with
  | [(m, ev)] => (m =? n) && ((match act with AStep Failure => true | _ => false end) || error_answer ev)
  | _ => false
  end.
Fixpoint watch (n : nat) (s : sys) (b : bool) (ms : list move) : option (bool * sys) :=
  match ms with
  | [] => Some (b, s)
  | m :: ms' => match sexec s m with Some (act, s') => watch n s' (b || watch_one n s act s') ms' | None => None end
  end.
Lemma watch_one_sound n s act s' : sstep s act s' -> if watch_one n s act s' then errs n s act s' else ~ errs n s act s'.
Proof.
  intros H. unfold watch_one. destruct (trace_grows _ _ _ H) as [E|(m & ev & E)].
  - rewrite E, skipn_all. now apply errs_other.
  - pose proof E as E'. unfold does in E'. rewrite E', skipn_app, skipn_all, Nat.sub_diag. cbn [skipn app].
    assert (K : errs n s act s' <-> m = n /\ (match act with AStep Failure => true | _ => false end) || error_answer ev = true).
    { unfold errs. split.
      - intros (e & D & K). unfold does in D. rewrite E' in D. apply app_inv_head in D. injection D as -> ->. split; [reflexivity|].
        destruct K as [-> | ->]; [reflexivity|now rewrite orb_true_r].
      - intros [-> K]. exists ev. split; [exact E|]. destruct act as [[]| | | |]; auto. }
    destruct (Nat.eqb_spec m n); cbn [andb]; [|rewrite K; tauto].
    destruct ((match act with AStep Failure => true | _ => false end) || error_answer ev); rewrite K; [auto|]. intros [_ D]. discriminate.
Qed.
Lemma watch_sound n s0 ms : forall s b b' s', watched n s0 b s -> watch n s b ms = Some (b', s') -> watched n s0 b' s'.
Proof.
  induction ms as [|m ms IH]; intros s b b' s' W; cbn [watch]; [intros [= -> ->]; exact W|].
  destruct (sexec s m) as [[act s1]|] eqn:Ex; [|discriminate]. intros E. pose proof (sexec_sound _ _ _ _ Ex) as H.
  pose proof (watch_one_sound n _ _ _ H) as K. destruct (watch_one n s act s1).
  - rewrite orb_true_r in E. eapply IH; [|exact E]. eapply wt_error; eauto.
  - rewrite orb_false_r in E. eapply IH; [|exact E]. eapply wt_fine; eauto.
Qed.
Definition completes (n : nat) (s : sys) : option bool :=
  match find (fun t => t_id t =? n) (sy_tasks s) with Some t => match t_prog t with PEnd ok => Some ok | _ => None end | None => None end.
Lemma completes_sound n s ok : completes n s = Some ok -> completed n ok s.
Proof.
  unfold completes, completed. destruct (find _ _) as [t|] eqn:E; [|discriminate]. apply find_some in E. destruct E as [Ht E].
  apply Nat.eqb_eq in E. intros K. exists t. split; [exact Ht|]. split; [exact E|]. destruct (t_prog t); try discriminate. congruence.
Qed.
Lemma watch_same n n' ms : forall s b c b' s' c' s'', watch n s b ms = Some (b', s') -> watch n' s c ms = Some (c', s'') -> s' = s''.
Proof.
  induction ms as [|m ms IH]; intros s b c b' s' c' s''; cbn [watch]; [congruence|].
  destruct (sexec s m) as [[act s1]|]; [|discriminate]. apply IH.
Qed.
Definition refused7 (e : nat * event) : bool := match snd e with ESend i ok => (fst e =? 1) && (i =? 7) && negb ok | _ => false end.
Lemma refused7_sound e : refused7 e = true -> e = (1, ESend 7 false).
Proof.
  destruct e as [n ev]. unfold refused7. cbn [fst snd]. destruct ev as [| | |i ok| | | | | |]; try discriminate.
  destruct (Nat.eqb_spec n 1), (Nat.eqb_spec i 7), ok; try discriminate. now subst.
Qed.
Definition mixed : list move := ordinary ++ [MEnqueue 8; MBoot 1; MStep 3 Yes; MStep 3 Yes; MStep 3 Yes; MStep 3 (Pick 8); MStep 3 Yes;
  MStep 4 Yes; MStep 4 Broken].
Example C68_example : exists s, watched 0 (sys0 0) false s /\ completed 0 true s /\ watched 1 (sys0 0) false s /\ completed 1 true s
  /\ In (1, ESend 7 false) (sy_trace s) /\ watched 4 (sys0 0) true s /\ completed 4 false s.
Proof.
  destruct (watch 0 (sys0 0) false mixed) as [[b0 s]|] eqn:W0; [|exfalso; vm_compute in W0; discriminate W0].
  assert (R : option_map (fun x => (fst x, completes 0 (snd x), completes 1 (snd x), completes 4 (snd x), existsb refused7 (sy_trace (snd x))))
                         (watch 0 (sys0 0) false mixed) = Some (false, Some true, Some true, Some false, true)) by (vm_compute; reflexivity).
  assert (R1 : option_map fst (watch 1 (sys0 0) false mixed) = Some false) by (vm_compute; reflexivity).
  assert (R4 : option_map fst (watch 4 (sys0 0) false mixed) = Some true) by (vm_compute; reflexivity).
  destruct (watch 1 (sys0 0) false mixed) as [[b1 s1]|] eqn:W1; [|discriminate R1].
  destruct (watch 4 (sys0 0) false mixed) as [[b4 s4]|] eqn:W4; [|discriminate R4].
  rewrite W0 in R. cbn [option_map fst snd] in *. injection R as -> C0 C1 C4 K. injection R1 as ->. injection R4 as ->.
  assert (s = s1) by exact (watch_same 0 1 _ _ _ _ _ _ _ _ W0 W1). assert (s1 = s4) by exact (watch_same 1 4 _ _ _ _ _ _ _ _ W1 W4). subst s s1.
  exists s4. split; [eapply watch_sound; [apply wt_start|exact W0]|]. split; [now apply completes_sound|].
  split; [eapply watch_sound; [apply wt_start|exact W1]|]. split; [now apply completes_sound|].
  split; [|split; [eapply watch_sound; [apply wt_start|exact W4]|now apply completes_sound]].
  apply existsb_exists in K. destruct K as (e & Hi & K). apply refused7_sound in K. now subst e.
Qed.

Print Assumptions C68_result_tells.
Print Assumptions C68_failure_is_the_end.
Print Assumptions C68_always_watched.
Print Assumptions C68_ok_means_all_taken_up.
