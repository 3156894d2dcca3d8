(** C80: retries do not multiply tasks. *)
From Coq Require Import List Arith NArith Bool Lia.
Import ListNotations.
From Verif Require Import Queue SpecQueue QueueProofs QueueExec PropQueue SpecTasks.
Local Open Scope nat_scope.

Lemma listed_app f a b : listed f (a ++ b) = listed f a + listed f b.
Proof. unfold listed. now rewrite filter_app, app_length. Qed.
Lemma listed_one f n e : listed f [(n, e)] = if lists f e then 1 else 0.
Proof. unfold listed. cbn. now destruct (lists f e). Qed.

(** The scanning part of a startup. *)
Definition scanning (p : prog) : bool :=
  match p with
  | PNow _ | PListQueue _ | PQueueNext _ _ | PFindInflight _ | PFindNext _ _ | PGoto (CQueueLoop _ _) | PGoto (CFindLoop _ _) => true
  | PSpawn _ (PGoto _) => true
  | _ => false
  end.
Definition for_mail (f : nat -> bool) (c : call) : bool := match c with CSend (Qm id) => f id | CFound _ q => f (fm_id q) | _ => false end.
(** A task for a mail, or one that is going to start one. *)
Definition weight (f : nat -> bool) (p : prog) : nat :=
  match p with
  | PSpawn c (PGoto _) => if for_mail f c then 1 else 0
  | _ => if on f (Task 0 0 p) then 1 else 0
  end.
Lemma on_weight f n i p : (if on f (Task n i p) then 1 else 0) <= weight f p.
Proof.
  unfold weight. destruct p; try (cbn; reflexivity). destruct p; try reflexivity. cbn. destruct c as [|[id]| | |]; lia.
Qed.

(** One operation of a task. *)
Lemma pstep_tasks f ms acc h w p lab ev p' cs w' : point ms acc h p -> pstep w p lab ev p' cs w' ->
  weight f p' + list_sum (map (fun c => weight f (body c)) cs) <= weight f p + (if lists f ev then 1 else 0)
  /\ (scanning p' = true -> scanning p = true)
  /\ (forall c, In c cs -> scanning (body c) = false)
  /\ (lists any ev = true -> scanning p = true).
Proof.
  intros Hp H. inversion Hp; subst; clear Hp; cbn in H; inversion H; subst; clear H;
    cbn [map list_sum fold_right on weight for_mail t_prog body send_queued_mail found after_start after_get after_transport after_cancel after_delay after_found
         run queue_loop find_loop queue_item find_item scanning lists im_id fm_id].
  all: (split; [repeat match goal with |- context [if ?x then _ else _] => destruct x end; lia|]).
  all: (split; [intros; try discriminate; reflexivity|]); (split; [|intros; try discriminate; reflexivity]).
  all: try (intros cc [<-|[]]; reflexivity).
  all: try (intros cc Hc; now destruct Hc).
Qed.

(** An alive task is for a mail or part of a startup. *)
Lemma alive_point ms acc h p n i : point ms acc h p -> alive (Task n i p) = true ->
  1 <= (if on any (Task n i p) then 1 else 0) + (if scanning p then 1 else 0).
Proof. intros Hp. destruct Hp; cbn; try lia; discriminate. Qed.

Definition heavy (f : nat -> bool) (l : list task) : nat := list_sum (map (fun t => weight f (t_prog t)) l).
Lemma heavy_app f a b : heavy f (a ++ b) = heavy f a + heavy f b.
Proof. unfold heavy. now rewrite map_app, list_sum_app. Qed.
Lemma heavy_cons f t l : heavy f (t :: l) = weight f (t_prog t) + heavy f l. Proof. reflexivity. Qed.
Lemma heavy_new f n i cs : heavy f (new_tasks n i cs) = list_sum (map (fun c => weight f (body c)) cs).
Proof.
  unfold new_tasks. revert n. induction cs as [|c cs IH]; intros n; [reflexivity|]. cbn [number map fst snd]. rewrite heavy_cons, IH. reflexivity.
Qed.
Lemma heavy_filter f (q : task -> bool) l : heavy f (filter q l) <= heavy f l.
Proof. induction l as [|t l IH]; [reflexivity|]. cbn [filter]. rewrite heavy_cons. destruct (q t); rewrite ?heavy_cons; lia. Qed.
Lemma heavy_on f l : length (filter (on f) l) <= heavy f l.
Proof. induction l as [|[n i p] l IH]; [reflexivity|]. rewrite heavy_cons. cbn [filter t_prog]. pose proof (on_weight f n i p). destruct (on f _); cbn [length]; lia. Qed.

(** [rs]: the numbers of the tasks that [run] was spawned as. *)
Record counted (f : nat -> bool) (rs : list nat) (s : sys) : Prop := {
  cn_held : heavy f (sy_tasks s) <= listed f (sy_trace s);
  cn_runs : forall n e, In (n, e) (sy_trace s) -> lists any e = true -> In n rs;
  cn_scans : forall t, In t (sy_tasks s) -> scanning (t_prog t) = true -> In (t_id t) rs
}.
Lemma counted_step f rs s act s' : inv s -> counted f rs s -> sstep s act s' ->
  counted f (rs ++ if match act with ABoot _ => true | _ => false end then [sy_next s] else []) s'.
Proof.
  intros [I1 I2 I3 I4 I5 I6 I7 I8] [C1 C2 C3] H. inversion H; subst; cbn [sy_w sy_tasks sy_next sy_mails sy_trace] in *; rewrite ?app_nil_r.
  - rewrite Forall_app in I3. destruct I3 as [_ I3]. apply Forall_inv in I3. cbn [t_id t_prog] in I3.
    destruct (pstep_tasks f _ _ _ _ _ _ _ _ _ _ I3 H0) as (P1 & P3 & P4 & P5).
    constructor; cbn [sy_w sy_tasks sy_next sy_mails sy_trace].
    + rewrite listed_app, listed_one, heavy_app, heavy_cons, heavy_app, heavy_new. rewrite heavy_app, heavy_cons in C1. cbn [t_prog] in *. lia.
    + intros m e Hm He. apply in_app_or in Hm. destruct Hm as [Hm|[[= -> ->]|[]]]; [now apply (C2 m e)|].
      apply (C3 (Task m inst p)); [apply in_mid; now right; left|]. exact (P5 He).
    + intros t Ht Hs. rewrite in_mid, in_app_iff in Ht. destruct Ht as [Ht|[->|[Ht|Ht]]].
      * apply C3; [apply in_mid; now left|exact Hs].
      * apply (C3 (Task n inst p)); [apply in_mid; now right; left|now apply P3].
      * apply C3; [apply in_mid; now right; right|exact Hs].
      * apply new_tasks_in in Ht. destruct Ht as (_ & c & Hc & E & _). rewrite E, (P4 _ Hc) in Hs. discriminate.
  - now constructor.
  - now constructor.
  - constructor; cbn [sy_w sy_tasks sy_next sy_mails sy_trace].
    + rewrite heavy_app, heavy_cons. cbn. lia.
    + intros m e Hm He. apply in_or_app. left. now apply (C2 m e).
    + intros t Ht Hs. apply in_or_app. apply in_app_or in Ht. destruct Ht as [Ht|[<-|[]]]; [left; now apply C3|right; now left].
  - constructor; cbn [sy_w sy_tasks sy_next sy_mails sy_trace]; auto.
    + eapply Nat.le_trans; [apply heavy_filter|exact C1].
    + intros t Ht. apply filter_In in Ht. destruct Ht as [Ht _]. now apply C3.
Qed.
Lemma steps_counted f t0 acts s : steps (sys0 t0) acts s -> inv s /\ exists rs, length rs = boots acts /\ counted f rs s.
Proof.
  intros H. remember (sys0 t0) as s0 eqn:E. induction H as [|s acts s1 act s2 H IH K]; subst.
  - split; [apply inv0|]. exists []. split; [reflexivity|]. constructor; cbn; [lia|intros n c []|intros t []].
  - destruct (IH eq_refl) as (Hi & rs & Hl & Hc). split; [eapply inv_step; eauto|].
    eexists. split; [|eapply counted_step; eauto]. rewrite app_length, Hl. unfold boots. rewrite filter_app, app_length. destruct act; reflexivity.
Qed.

(** Whatever happens, the tasks that are for a mail are at most as many as the times
    startups have listed it: however often the mail is refused and tried again. *)
Theorem C80_tasks_for_a_mail : forall t0 acts s id, steps (sys0 t0) acts s ->
  length (filter (on (just id)) (sy_tasks s)) <= listed (just id) (sy_trace s).
Proof.
  intros t0 acts s id H. destruct (steps_counted (just id) _ _ _ H) as (_ & rs & _ & C). eapply Nat.le_trans; [apply heavy_on|exact (cn_held _ _ _ C)].
Qed.

(** All tasks: one for each startup, and one for each mail it listed. *)
Theorem C80_all_tasks : forall t0 acts s, steps (sys0 t0) acts s ->
  length (filter alive (sy_tasks s)) <= boots acts + listed any (sy_trace s).
Proof.
  intros t0 acts s H. destruct (steps_counted any _ _ _ H) as ([I1 I2 I3 I4 I5 I6 I7 I8] & rs & Hl & [C1 _ C3]).
  assert (Hs : length (filter (fun t => scanning (t_prog t)) (sy_tasks s)) <= length rs).
  { rewrite <- (map_length t_id). apply NoDup_incl_length.
    - clear -I1. induction (sy_tasks s) as [|t l IH]; [constructor|]. cbn [map filter] in *. inversion I1; subst. destruct (scanning _); auto.
      cbn [map]. constructor; auto. intros Hx. apply H1. apply in_map_iff in Hx. destruct Hx as (t' & <- & Ht). apply filter_In in Ht. now apply in_map.
    - intros x Hx. apply in_map_iff in Hx. destruct Hx as (t & <- & Ht). apply filter_In in Ht. destruct Ht as [Ht Hsc]. now apply C3. }
  rewrite <- Hl. pose proof (heavy_on any (sy_tasks s)) as Ho.
  enough (length (filter alive (sy_tasks s)) <= length (filter (fun t => scanning (t_prog t)) (sy_tasks s)) + length (filter (on any) (sy_tasks s))) by lia.
  clear -I3. induction (sy_tasks s) as [|[n i p] l IH]; [reflexivity|]. cbn [filter]. apply Forall_inv in I3 as P. apply Forall_inv_tail in I3. specialize (IH I3).
  pose proof (alive_point _ _ _ _ n i P) as A. cbn [t_prog] in *.
  destruct (alive _); [specialize (A eq_refl)|clear A]; destruct (scanning p), (on any _); cbn [length]; lia.
Qed.

(** Nothing is done with a mail but by these tasks. *)
Theorem C80_only_these : forall t0 acts s act s' n ev id, steps (sys0 t0) acts s -> sstep s act s' ->
  does s s' n ev -> about ev = Some id -> exists t, In t (sy_tasks s) /\ t_id t = n /\ on (just id) t = true /\ alive t = true.
Proof.
  intros t0 acts s act s' n ev id H K D A. destruct (steps_counted any _ _ _ H) as ([I1 I2 I3 I4 I5 I6 I7 I8] & _).
  unfold does in D. inversion K; subst; cbn [sy_w sy_tasks sy_next sy_mails sy_trace] in *; try (exfalso; revert D; rewrite <- (app_nil_r tr) at 1; intros D; apply app_inv_head in D; discriminate).
  apply app_inv_head in D. injection D as -> ->. exists (Task n inst p). split; [apply in_mid; now right; left|]. split; [reflexivity|].
  rewrite Forall_app in I3. destruct I3 as [_ I3]. apply Forall_inv in I3. cbn [t_id t_prog] in I3.
  clear -I3 H0 A. inversion I3; subst; cbn in H0; inversion H0; subst; try discriminate A; cbn in A; injection A as <-; cbn; unfold just; rewrite Nat.eqb_refl; auto.
Qed.

(** If no startup lists the mail twice, there are at most two tasks for each startup. *)
Lemma split_by (q : nat * event -> bool) rs tr : (forall x, In x tr -> q x = true -> In (fst x) rs) ->
  length (filter q tr) <= list_sum (map (fun n => length (filter (fun x => (fst x =? n) && q x) tr)) rs).
Proof.
  induction tr as [|x tr IH]; intros H; [cbn; lia|]. cbn [filter].
  assert (G : list_sum (map (fun n => length (filter (fun x => (fst x =? n) && q x) tr)) rs) + (if q x then 1 else 0)
     <= list_sum (map (fun n => length (if (fst x =? n) && q x then x :: filter (fun x => (fst x =? n) && q x) tr else filter (fun x => (fst x =? n) && q x) tr)) rs)).
  { specialize (H x (or_introl eq_refl)). destruct (q x); [|].
    - specialize (H eq_refl). clear -H. induction rs as [|r rs IH]; [destruct H|]. cbn [map list_sum fold_right]. unfold list_sum in IH. rewrite andb_true_r. destruct H as [->|H].
      + rewrite Nat.eqb_refl. cbn [length].
        enough (forall l, fold_right Nat.add 0 (map (fun n => length (filter (fun x0 => (fst x0 =? n) && q x0) tr)) l) <= fold_right Nat.add 0 (map (fun n => length (if (fst x =? n) && true then x :: filter (fun x0 => (fst x0 =? n) && q x0) tr else filter (fun x0 => (fst x0 =? n) && q x0) tr)) l)) as E by (specialize (E rs); lia).
        induction l as [|a l IHl]; [reflexivity|]. cbn [map fold_right]. destruct ((fst x =? a) && true); cbn [length]; lia.
      + specialize (IH H). destruct (fst x =? r); cbn [length]; lia.
    - clear. rewrite Nat.add_0_r. induction rs as [|r rs IH]; [reflexivity|]. cbn [map list_sum fold_right]. unfold list_sum in IH. rewrite andb_false_r. lia. }
  specialize (IH (fun y Hy => H y (or_intror Hy))). destruct (q x); cbn [length]; lia.
Qed.
Theorem C80_at_most_two : forall t0 acts s id, steps (sys0 t0) acts s -> lists_once id (sy_trace s) ->
  length (filter (on (just id)) (sy_tasks s)) <= 2 * boots acts.
Proof.
  intros t0 acts s id H L. destruct (steps_counted (just id) _ _ _ H) as (_ & rs & Hl & [C1 C2 _]).
  eapply Nat.le_trans; [apply heavy_on|]. eapply Nat.le_trans; [exact C1|]. rewrite <- Hl.
  unfold listed. eapply Nat.le_trans; [apply split_by with (rs := rs)|].
  - intros [n e] Hi Hq. cbn [fst snd] in *. apply (C2 n e Hi). destruct e; try discriminate Hq; reflexivity.
  - clear Hl C1 C2. induction rs as [|r rs IH]; [reflexivity|]. cbn [map list_sum fold_right length]. unfold list_sum in IH.
    enough (length (filter (fun x => (fst x =? r) && lists (just id) (snd x)) (sy_trace s)) <= 2) by lia.
    destruct (L r) as [L1 L2]. unfold queued_by, found_by in *.
    enough (forall tr, length (filter (fun x => (fst x =? r) && lists (just id) (snd x)) tr) <= queued_by r id tr + found_by r id tr) as E
      by (specialize (E (sy_trace s)); unfold queued_by, found_by in E; lia).
    clear. induction tr as [|[n e] tr IH]; [reflexivity|]. unfold queued_by, found_by in *. cbn [filter fst snd]. destruct (n =? r); cbn [andb]; [|exact IH].
    destruct e as [| | | | | |i| | |i]; cbn [lists]; try exact IH; unfold just at 1; rewrite (Nat.eqb_sym id i); destruct (i =? id); cbn [length]; lia.
Qed.

(** All tasks ever started: one for each startup, one for each mail listed, and one
    for each mail that was put back in the queue after a refusal (at most: some may
    not have been started yet, or never are because of a crash). *)
Lemma started t0 acts s : steps (sys0 t0) acts s ->
  sy_next s = boots acts + length (filter (fun x => match snd x with ESpawn _ => true | _ => false end) (sy_trace s)).
Proof.
  intros H. remember (sys0 t0) as s0 eqn:E. induction H as [|s acts s1 act s2 H IH K]; subst; [reflexivity|]. specialize (IH eq_refl).
  unfold boots in *. rewrite filter_app, app_length. inversion K; subst; cbn [sy_next sy_trace sy_tasks filter length] in *; rewrite ?Nat.add_0_r; try exact IH; [|lia].
  rewrite filter_app, app_length.
  assert (L : length cs = match ev with ESpawn _ => 1 | _ => 0 end) by (clear -H0; inversion H0; subst; reflexivity).
  rewrite L. cbn [filter snd]. destruct ev; cbn [length]; lia.
Qed.
Definition spawning (p : prog) : nat := match p with PSpawn _ _ => 1 | _ => 0 end.
Definition spawners (l : list task) : nat := list_sum (map (fun t => spawning (t_prog t)) l).
Lemma pstep_spawning ms acc h w p lab ev p' cs w' : point ms acc h p -> pstep w p lab ev p' cs w' ->
  spawning p' + length cs <= spawning p + (if lists any ev then 1 else 0) + match ev with ECancel _ true => 1 | _ => 0 end
  /\ list_sum (map (fun c => spawning (body c)) cs) = 0.
Proof. intros Hp H. inversion Hp; subst; clear Hp; cbn in H; inversion H; subst; clear H; split; cbn; try reflexivity; lia. Qed.
Lemma spawners_app a b : spawners (a ++ b) = spawners a + spawners b.
Proof. unfold spawners. now rewrite map_app, list_sum_app. Qed.
Lemma spawners_cons t l : spawners (t :: l) = spawning (t_prog t) + spawners l. Proof. reflexivity. Qed.
Theorem C80_tasks_started : forall t0 acts s, steps (sys0 t0) acts s ->
  sy_next s <= boots acts + listed any (sy_trace s) + put_back (sy_trace s).
Proof.
  intros t0 acts s H.
  enough (inv s /\ sy_next s + spawners (sy_tasks s) <= boots acts + listed any (sy_trace s) + put_back (sy_trace s)) by lia.
  remember (sys0 t0) as s0 eqn:E. induction H as [|s acts s1 act s2 H IH K]; subst; [split; [apply inv0|reflexivity]|]. destruct (IH eq_refl) as (I1 & B).
  split; [eapply inv_step; eauto|]. clear IH H.
  unfold boots in *. rewrite filter_app, app_length. inversion K; subst; cbn [sy_next sy_trace sy_tasks filter length] in *; rewrite ?Nat.add_0_r.
  - destruct I1 as [_ _ I3 _ _ _ _ _]. cbn [sy_tasks sy_trace sy_w sy_mails] in I3. rewrite Forall_app in I3. destruct I3 as [_ I3]. apply Forall_inv in I3. cbn [t_id t_prog] in I3.
    destruct (pstep_spawning _ _ _ _ _ _ _ _ _ _ I3 H) as [P1 P2].
    rewrite listed_app, listed_one. unfold put_back in *. rewrite filter_app, app_length. cbn [filter snd].
    assert (Hn : spawners (new_tasks nx inst cs) = 0).
    { rewrite <- P2. clear. unfold new_tasks. revert nx. induction cs as [|c cs IH]; intros nx; [reflexivity|]. cbn [number map fst snd]. rewrite spawners_cons, IH. reflexivity. }
    rewrite spawners_app, spawners_cons, spawners_app, Hn. rewrite spawners_app, spawners_cons in B. cbn [t_prog] in *.
    destruct ev as [| | | | |i []| | | |]; cbn [length lists] in *; lia.
  - exact B.
  - exact B.
  - rewrite spawners_app, spawners_cons. cbn. lia.
  - enough (spawners (filter (fun t => negb (t_inst t =? inst)) ts) <= spawners ts) by lia.
    clear. induction ts as [|t ts IH]; [reflexivity|]. cbn [filter]. rewrite spawners_cons. destruct (negb _); rewrite ?spawners_cons; lia.
Qed.

Lemma lists_once_by_run id tr : forallb (fun x => Nat.leb (queued_by (fst x) id tr) 1 && Nat.leb (found_by (fst x) id tr) 1) tr = true -> lists_once id tr.
Proof.
  intros H n. rewrite forallb_forall in H. destruct (existsb (fun x => fst x =? n) tr) eqn:E.
  - apply existsb_exists in E. destruct E as (x & Hx & E). apply Nat.eqb_eq in E. subst. specialize (H x Hx). apply andb_true_iff in H. now rewrite !Nat.leb_le in H.
  - clear H. unfold queued_by, found_by. enough (G : forall q : nat * event -> bool, filter (fun x => (fst x =? n) && q x) tr = []) by (rewrite !G; cbn; lia).
    intros q. induction tr as [|x tr IH]; [reflexivity|]. cbn [existsb] in E. apply orb_false_iff in E. destruct E as [E1 E2]. cbn [filter]. rewrite E1. cbn [andb]. now apply IH.
Qed.
Lemma boots_by_run t0 acts s b : steps (sys0 t0) acts s ->
  sy_next s = b + length (filter (fun x => match snd x with ESpawn _ => true | _ => false end) (sy_trace s)) -> boots acts = b.
Proof. intros H E. rewrite (started _ _ _ H) in E. lia. Qed.

(** Refused three times, and there is one task.  A storage that lists the mail twice:
    two, so the bounds are reached. *)
Example C80_example : exists acts s, steps (sys0 0) acts s /\ boots acts = 1 /\ lists_once 7 (sy_trace s) /\ refusals 7 (sy_trace s) = 3
  /\ length (filter (on (just 7)) (sy_tasks s)) = 1 /\ listed (just 7) (sy_trace s) = 1
  /\ length (filter alive (sy_tasks s)) = 1 /\ listed any (sy_trace s) = 1 /\ put_back (sy_trace s) = 3 /\ sy_next s = 5.
Proof.
  assert (E : exists s, execs okA okS (sys0 0) ([MEnqueue 7; MBoot 0] ++ m_start ++ m_scan_end ++ m_refused 1 ++ m_refused 2 ++ m_refused 3) = Some s
    /\ (forallb (fun x => Nat.leb (queued_by (fst x) 7 (sy_trace s)) 1 && Nat.leb (found_by (fst x) 7 (sy_trace s)) 1) (sy_trace s), refusals 7 (sy_trace s),
        length (filter (on (just 7)) (sy_tasks s)), listed (just 7) (sy_trace s), length (filter alive (sy_tasks s)), listed any (sy_trace s), put_back (sy_trace s), sy_next s,
        length (filter (fun x => match snd x with ESpawn _ => true | _ => false end) (sy_trace s))) = (true, 3, 1, 1, 1, 1, 3, 5, 4)).
  { eexists. split; [vm_compute; reflexivity|vm_compute; reflexivity]. }
  destruct E as (s & E & K). injection K as K1 K2 K3 K4 K5 K6 K9 K7 K8.
  destruct (steps_of_reach any_action any_state (sys0 0) s) as [acts H]; [refine (exec_steps _ _ okA okS _ _ _ _ _ _ E); constructor|].
  exists acts, s. split; [exact H|]. split; [apply (boots_by_run _ _ _ _ H); rewrite K7, K8; reflexivity|]. split; [now apply lists_once_by_run|]. auto 12.
Qed.
Example C80_listed_twice : exists acts s, steps (sys0 0) acts s /\ boots acts = 1
  /\ length (filter (on (just 7)) (sy_tasks s)) = 2 /\ listed (just 7) (sy_trace s) = 2 /\ length (filter alive (sy_tasks s)) = 3.
Proof.
  assert (E : exists s, execs okA okS (sys0 0) ([MEnqueue 7; MBoot 0] ++ m_start ++ [MStep 0 (Pick 7); MStep 0 Yes; MStep 0 Yes] ++ m_refused 1) = Some s
    /\ (length (filter (on (just 7)) (sy_tasks s)), listed (just 7) (sy_trace s), length (filter alive (sy_tasks s)), sy_next s,
        length (filter (fun x => match snd x with ESpawn _ => true | _ => false end) (sy_trace s))) = (2, 2, 3, 4, 3)).
  { eexists. split; [vm_compute; reflexivity|vm_compute; reflexivity]. }
  destruct E as (s & E & K). injection K as K1 K2 K3 K4 K5.
  destruct (steps_of_reach any_action any_state (sys0 0) s) as [acts H]; [refine (exec_steps _ _ okA okS _ _ _ _ _ _ E); constructor|].
  exists acts, s. split; [exact H|]. split; [apply (boots_by_run _ _ _ _ H); rewrite K4, K5; reflexivity|]. auto.
Qed.
Print Assumptions C80_tasks_for_a_mail.
Print Assumptions C80_all_tasks.
Print Assumptions C80_only_these.
Print Assumptions C80_at_most_two.
Print Assumptions C80_tasks_started.
