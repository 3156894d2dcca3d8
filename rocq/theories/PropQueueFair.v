(** C54, C61: on a schedule that forgets nobody, every mail known at startup is delivered. *)
From Coq Require Import List Arith NArith Bool Lia.
Import ListNotations.
From Verif Require Import Queue SpecQueue QueueProofs QueueTime QueueLive QueueFair QueueExec PropQueue.
Local Open Scope nat_scope.

Lemma covered_boot id s inst s' : covered id s -> sstep s (ABoot inst) s' -> covered id s'.
Proof.
  intros [Hm Hc] H. inversion H; subst. cbn [sy_w sy_tasks sy_mails] in *. split; [exact Hm|]. cbn [sy_w sy_tasks].
  destruct Hc as [Hc|(t & Ht & Hh)]; [now left|right]. exists t. split; [apply in_or_app; now left|exact Hh].
Qed.
Lemma spared_covered id s s' : inv s -> covered id s -> reach_by (spares_or_boots id) s s' -> inv s' /\ covered id s'.
Proof.
  intros I C R. induction R as [|x a x' R IH Ha Hs]; [auto|]. destruct IH as [Ix Cx]. split; [eapply inv_step; eauto|].
  destruct Ha as [Ha|[i ->]]; [eapply covered_step; eauto|eapply covered_boot; eauto].
Qed.
Lemma no_failure_spares id s act s' : no_failure act -> spares_or_boots id s act s'.
Proof. destruct act as [[]|j| |i|i]; cbn; intros H; try contradiction; try (left; exact H). right. now exists i. Qed.
Lemma reach_reach_by (A : action -> Prop) P (R : sys -> action -> sys -> Prop) s s' : (forall s act s', A act -> R s act s') -> reach A P s s' -> reach_by R s s'.
Proof. intros H X. induction X; [apply rb_refl|]. eapply rb_step; eauto. Qed.

Lemma execution_reach R e n m : execution_by R e -> n <= m -> reach_by R (e n) (e m).
Proof.
  intros He H. induction H as [|m H IH]; [apply rb_refl|]. destruct (He m) as (act & Ha & Hs). eapply rb_step; eauto.
Qed.
Lemma any_reach R t0 a b : reach any_action any_state (sys0 t0) a -> reach_by R a b -> reach any_action any_state (sys0 t0) b.
Proof. intros Ha Hb. induction Hb as [|x act y Hx IH Hc Hs]; [exact Ha|]. eapply rc_step; eauto; exact I. Qed.
Lemma reach_by_mails R s s' id : reach_by R s s' -> In id (sy_mails s) -> In id (sy_mails s').
Proof.
  intros X H. induction X as [|x a x' X IH Ha Hs]; [exact H|].
  inversion Hs; subst; cbn [sy_mails] in *; auto. apply in_or_app. auto.
Qed.

Section Start.
Context (t0 : N) (acts : list action) (s1 : sys) (inst : nat) (s2 : sys) (id : nat) (e : nat -> sys)
  (H1 : steps (sys0 t0) acts s1) (B : sstep s1 (ABoot inst) s2) (E1 : lookup id (stor (sy_w s1)) <> None)
  (R : reach_by (spares_or_boots id) s2 (e 0)) (He : execution_by (spares id) e).
Lemma start_reach n : reach any_action any_state (sys0 t0) (e n).
Proof.
  eapply any_reach; [|apply (execution_reach _ e 0 n He); lia]. eapply any_reach; [|exact R].
  eapply rc_step; [apply (reach_of_steps _ _ _ H1)|exact I|exact B|exact I].
Qed.
Lemma start_covered : covered id (e 0).
Proof.
  assert (I2 : inv s2).
  { eapply reach_inv with (A := any_action) (P := any_state) (t0 := t0). eapply rc_step; [apply (reach_of_steps _ _ _ H1)|exact I|exact B|exact I]. }
  apply (spared_covered id s2); auto. inversion B; subst. cbn [sy_w] in E1. split.
  - cbn [sy_mails]. apply (iv_stored _ I2). exact E1.
  - right. cbn [sy_w sy_tasks]. eexists. split; [apply in_or_app; right; now left|constructor].
Qed.
Lemma start_gone n : lookup id (stor (sy_w (e n))) = None -> exists k, In (k, ESend id true) (sy_trace (e n)).
Proof.
  intros El. pose proof (start_reach n) as Rn. destruct (iv_kept _ (reach_inv _ _ _ _ Rn) id) as [K|K].
  - eapply reach_by_mails; [apply (execution_reach _ e 0 n He); lia|apply start_covered].
  - contradiction.
  - rewrite (reach_accepts _ _ _ _ Rn) in K. now apply accepts_in.
Qed.
End Start.

(** ** C61: what fails for other mails does not matter *)
Theorem C61_delivered_or_always_refused : forall t0 acts s1 inst s2 id e,
  steps (sys0 t0) acts s1 -> sstep s1 (ABoot inst) s2 -> lookup id (stor (sy_w s1)) <> None ->
  reach_by (spares_or_boots id) s2 (e 0) -> execution_by (spares id) e -> answered e -> time_passes e -> listings_end e ->
  forall k, exists m,
    (lookup id (stor (sy_w (e m))) = None /\ exists n, In (n, ESend id true) (sy_trace (e m)))
    \/ k <= refusals id (sy_trace (e m)).
Proof.
  intros t0 acts s1 inst s2 id e H1 B E1 R He Fair Time Ends k.
  pose proof (start_covered _ _ _ _ _ _ _ H1 B E1 R) as C0.
  assert (I0 : inv (e 0)) by (eapply reach_inv; eapply start_reach; eauto).
  destruct (scans_over id e He I0 Fair Time Ends) as (n & Q).
  destruct (all_settled id e He I0 Fair Time k C0 n Q _ n (le_n _) (le_n _)) as (m & _ & [K|K]); exists m; [left|now right].
  split; [exact K|]. eapply start_gone; eauto.
Qed.
Theorem C61_delivered : forall t0 acts s1 inst s2 id e bound,
  steps (sys0 t0) acts s1 -> sstep s1 (ABoot inst) s2 -> lookup id (stor (sy_w s1)) <> None ->
  reach_by (spares_or_boots id) s2 (e 0) -> execution_by (spares id) e -> answered e -> time_passes e -> listings_end e ->
  (forall m, refusals id (sy_trace (e m)) <= bound) ->
  exists m n, In (n, ESend id true) (sy_trace (e m)) /\ forall m', m <= m' -> lookup id (stor (sy_w (e m'))) = None.
Proof.
  intros t0 acts s1 inst s2 id e bound H1 B E1 R He Fair Time Ends Hb.
  destruct (C61_delivered_or_always_refused _ _ _ _ _ _ _ H1 B E1 R He Fair Time Ends (S bound)) as (m & [(El & n & Hn)|K]).
  2: { specialize (Hb m). lia. }
  exists m, n. split; [exact Hn|]. intros m' Hm. induction Hm as [|m' Hm IH]; [exact El|].
  assert (Hi : In id (sy_mails (e m'))).
  { eapply reach_by_mails; [apply (execution_reach _ e 0 m' He); lia|]. apply (start_covered _ _ _ _ _ _ _ H1 B E1 R). }
  destruct (He m') as (act & Ha & Hs). inversion Hs as [w a i ins p b nx ms tr lab ev p' cs w' P Ea Eb Ec|w ts nx ms tr j N1 N2 Ea Eb Ec|w ts nx ms tr dt Ea Eb Ec|w ts nx ms tr i Ea Eb Ec|w ts nx ms tr i Ea Eb Ec];
    subst act; cbn in Ha; try contradiction; rewrite <- Ea in IH, Hi; cbn [sy_w sy_mails stor set_stor] in *.
  - eapply step_none; eauto.
  - rewrite put_other; [exact IH|]. intros ->. contradiction.
  - exact IH.
Qed.

(** ** C54: fair delivery *)
Lemma calm_execution id e : execution calm e -> execution_by (spares id) e.
Proof. intros H n. destruct (H n) as (act & Ha & Hs). exists act. split; [now apply calm_spares|exact Hs]. Qed.
(** A mail stored when an instance is started, whatever happened before, is
    accepted by the transport and removed, or else refused without end. *)
Theorem C54_delivered_or_always_refused : forall t0 acts s1 inst s2 id e,
  steps (sys0 t0) acts s1 -> sstep s1 (ABoot inst) s2 -> lookup id (stor (sy_w s1)) <> None ->
  reach no_failure any_state s2 (e 0) -> execution calm e -> answered e -> time_passes e -> listings_end e ->
  forall k, exists m,
    (lookup id (stor (sy_w (e m))) = None /\ exists n, In (n, ESend id true) (sy_trace (e m)))
    \/ k <= refusals id (sy_trace (e m)).
Proof.
  intros t0 acts s1 inst s2 id e H1 B E1 R He Fair Time Ends.
  apply (C61_delivered_or_always_refused _ _ _ _ _ _ _ H1 B E1); auto using calm_execution.
  eapply reach_reach_by; [|exact R]. apply no_failure_spares.
Qed.

(** If the transport refuses it only so often, it is delivered, and stays so. *)
Theorem C54_delivered : forall t0 acts s1 inst s2 id e bound,
  steps (sys0 t0) acts s1 -> sstep s1 (ABoot inst) s2 -> lookup id (stor (sy_w s1)) <> None ->
  reach no_failure any_state s2 (e 0) -> execution calm e -> answered e -> time_passes e -> listings_end e ->
  (forall m, refusals id (sy_trace (e m)) <= bound) ->
  exists m n, In (n, ESend id true) (sy_trace (e m)) /\ forall m', m <= m' -> lookup id (stor (sy_w (e m'))) = None.
Proof.
  intros t0 acts s1 inst s2 id e bound H1 B E1 R He Fair Time Ends Hb.
  eapply (C61_delivered _ _ _ _ _ _ _ bound H1 B E1); eauto using calm_execution.
  eapply reach_reach_by; [|exact R]. apply no_failure_spares.
Qed.

(** ** Such executions exist *)
(** Moves, then time passes for ever. *)
Fixpoint unroll (s : sys) (ms : list move) (n : nat) : sys :=
  match n with
  | 0 => s
  | S n' => match ms with
            | m :: ms' => match sexec s m with Some (_, s') => unroll s' ms' n' | None => s end
            | [] => match sexec s (MTick 1) with Some (_, s') => unroll s' [] n' | None => s end
            end
  end.
Section Works.
Context (okb : sys -> action -> sys -> bool) (R : sys -> action -> sys -> Prop)
  (Sound : forall s act s', sstep s act s' -> okb s act s' = true -> R s act s') (Tick : forall s s', R s ATick s').
Fixpoint works_by (s : sys) (ms : list move) : bool :=
  match ms with
  | [] => ends s
  | m :: ms' =>
      match sexec s m with
      | Some (act, s') =>
          okb s act s'
          && forallb (fun t => match t_prog t with
                               | PEnd _ => true
                               | _ => existsb (fun m => match m with MStep i _ => i =? t_id t | _ => false end) ms
                               end) (sy_tasks s)
          && works_by s' ms'
      | None => false
      end
  end.
Lemma works_execution : forall n ms s, works_by s ms = true ->
  exists act, R (unroll s ms n) act (unroll s ms (S n)) /\ sstep (unroll s ms n) act (unroll s ms (S n)).
Proof.
  induction n as [|n IH]; intros ms s W.
  - destruct ms as [|m ms].
    + exists ATick. split; [apply Tick|]. apply (sexec_sound s (MTick 1)). reflexivity.
    + cbn [works_by] in W. cbn [unroll]. destruct (sexec s m) as [[act s']|] eqn:E; [|discriminate W].
      rewrite !andb_true_iff in W. exists act. split; [cbn [unroll]; apply Sound; [eapply sexec_sound; eauto|apply W]|eapply sexec_sound; eauto].
  - destruct ms as [|m ms].
    + destruct (IH [] (Sys (World (now (sy_w s) + 1) (stor (sy_w s)) (fresh (sy_w s)) (accepted (sy_w s)))
                       (sy_tasks s) (sy_next s) (sy_mails s) (sy_trace s)) W) as (act & Ha & Hs). now exists act.
    + cbn [works_by] in W. cbn [unroll]. destruct (sexec s m) as [[act s']|] eqn:E; [|discriminate W].
      rewrite !andb_true_iff in W. apply (IH ms s' (proj2 W)).
Qed.
Lemma unroll_ticks : forall n s, unroll s [] n =
  Sys (World (now (sy_w s) + N.of_nat n) (stor (sy_w s)) (fresh (sy_w s)) (accepted (sy_w s))) (sy_tasks s) (sy_next s) (sy_mails s) (sy_trace s).
Proof.
  induction n as [|n IH]; intros s.
  - cbn. rewrite N.add_0_r. destruct s as [[]]; reflexivity.
  - cbn [unroll sexec]. rewrite IH. cbn [sy_w sy_tasks sy_next sy_mails sy_trace now stor fresh accepted]. do 2 f_equal. lia.
Qed.
Lemma works_end : forall ms s, works_by s ms = true -> ends (unroll s ms (length ms)) = true
  /\ forall n, unroll s ms (length ms + n) = unroll (unroll s ms (length ms)) [] n.
Proof.
  induction ms as [|m ms IH]; intros s W; [cbn in *; auto|]. cbn [works_by] in W. cbn [length unroll plus].
  destruct (sexec s m) as [[act s']|] eqn:E; [|discriminate W]. rewrite !andb_true_iff in W. apply IH, W.
Qed.
Lemma works_late ms s n t : works_by s ms = true -> length ms <= n -> In t (sy_tasks (unroll s ms n)) -> exists ok, t_prog t = PEnd ok.
Proof.
  intros W Hn Ht. destruct (works_end _ _ W) as [K1 K2]. replace n with (length ms + (n - length ms)) in Ht by lia.
  rewrite K2, unroll_ticks in Ht. cbn [sy_tasks] in Ht. unfold ends in K1. rewrite forallb_forall in K1. specialize (K1 t Ht).
  destruct (t_prog t) as [ok| | | | | | | | | | | | | |]; try discriminate K1. now exists ok.
Qed.
Lemma works_moves i an : forall ms s, works_by s ms = true -> In (MStep i an) ms ->
  exists m ev, sy_trace (unroll s ms (S m)) = sy_trace (unroll s ms m) ++ [(i, ev)].
Proof.
  induction ms as [|m ms IH]; intros s W H; [destruct H|]. cbn [works_by] in W.
  destruct (sexec s m) as [[act s']|] eqn:E; [|discriminate W]. rewrite !andb_true_iff in W. destruct H as [->|H].
  - exists 0. cbn [unroll]. rewrite E. clear IH W.
    cbn [sexec] in E. destruct (find_task i (sy_tasks s)) as [[[a x] b]|] eqn:F; [|discriminate E].
    destruct (find_task_spec _ _ _ _ _ F) as [_ Ei].
    destruct (pexec (sy_w s) (t_prog x) an) as [[[[[lab ev] p'] cs] w']|]; [|discriminate E]. injection E as E1 E2.
    exists ev. rewrite <- E2, <- Ei. reflexivity.
  - destruct (IH s' (proj2 W) H) as (k & ev & K). exists (S k), ev. cbn [unroll] in *. rewrite E. exact K.
Qed.
Lemma works_answered ms s : works_by s ms = true -> answered (unroll s ms).
Proof.
  intros W n t. revert ms s W. induction n as [|n IH]; intros ms s W Ht Hd.
  - destruct ms as [|m ms].
    + destruct (works_late [] s 0 t W (le_n _) Ht) as [ok Eo]. rewrite Eo in Hd. destruct Hd.
    + assert (W' := W). cbn [works_by] in W. destruct (sexec s m) as [[act s']|] eqn:E; [|discriminate W].
      rewrite !andb_true_iff in W. destruct W as [[_ W] _]. rewrite forallb_forall in W. specialize (W t Ht).
      assert (X : existsb (fun m => match m with MStep i _ => i =? t_id t | _ => false end) (m :: ms) = true).
      { cbn [unroll] in Hd. destruct (t_prog t); try exact W. destruct Hd. }
      apply existsb_exists in X. destruct X as ([i an|j|dt|j|j] & Hi & X); try discriminate X. apply Nat.eqb_eq in X. subst i.
      destruct (works_moves _ _ _ _ W' Hi) as (k & ev & K). exists k, ev. split; [lia|exact K].
  - destruct ms as [|m ms].
    + destruct (works_late [] s (S n) t W (Nat.le_0_l _) Ht) as [ok Eo]. rewrite Eo in Hd. destruct Hd.
    + cbn [works_by] in W. cbn [unroll] in Ht, Hd. destruct (sexec s m) as [[act s']|] eqn:E; [|discriminate W].
      rewrite !andb_true_iff in W. destruct (IH ms s' (proj2 W) Ht Hd) as (k & ev & Hk & K). exists (S k), ev.
      split; [lia|]. cbn [unroll] in *. rewrite E. exact K.
Qed.
Lemma works_by_fair ms s : works_by s ms = true ->
  execution_by R (unroll s ms) /\ answered (unroll s ms) /\ time_passes (unroll s ms) /\ listings_end (unroll s ms).
Proof.
  intros W. split; [intros n; now apply works_execution|]. split; [now apply works_answered|]. split.
  - intros n T. exists (length ms + (n + N.to_nat T)). split; [lia|]. destruct (works_end _ _ W) as [_ K]. rewrite K, unroll_ticks.
    cbn [sy_w now]. lia.
  - intros i. exists (length ms). intros m t Hm Ht _. destruct (works_late _ _ _ _ W Hm Ht) as [ok ->]. exact I.
Qed.
End Works.
Notation works := (works_by (fun _ a _ => calmb a)).
Lemma works_fair ms s : works s ms = true ->
  execution calm (unroll s ms) /\ answered (unroll s ms) /\ time_passes (unroll s ms) /\ listings_end (unroll s ms).
Proof. apply (works_by_fair _ (fun _ a _ => calm a)); [intros _ a _ _; apply calmb_sound|intros _ _; exact I]. Qed.
(** A mail left in flight by a crash; an instance is started, takes it up after
    3600 s, is refused once and then delivers. *)
Definition m_crashed : list move := [MEnqueue 7; MBoot 0] ++ m_start ++ [MStep 1 Yes; MStep 1 Yes; MCrash 0].
Definition m_recovery : list move :=
  [MStep 2 Yes; MStep 2 Yes; MStep 2 Yes; MStep 2 No; MStep 2 Yes; MStep 2 Yes; MStep 2 (Pick 7); MStep 2 Yes; MStep 2 Yes; MStep 2 No;
   MTick 3600; MStep 3 Yes; MStep 3 Yes; MStep 3 Yes] ++ m_refused 3 ++ m_delivered 4.
Definition booted (s : sys) : sys := Sys (sy_w s) (sy_tasks s ++ [Task (sy_next s) 1 run]) (S (sy_next s)) (sy_mails s) (sy_trace s).
Example C54_example : exists t0 acts s1 inst s2 e,
  steps (sys0 t0) acts s1 /\ sstep s1 (ABoot inst) s2 /\ lookup 7 (stor (sy_w s1)) = Some (Inflight 0) /\ sy_tasks s1 = []
  /\ reach no_failure any_state s2 (e 0) /\ execution calm e /\ answered e /\ time_passes e /\ listings_end e
  /\ (forall m, refusals 7 (sy_trace (e m)) <= 1) /\ exists m, refusals 7 (sy_trace (e m)) = 1.
Proof.
  assert (E : exists s1, execs okA okS (sys0 0) m_crashed = Some s1
    /\ lookup 7 (stor (sy_w s1)) = Some (Inflight 0) /\ length (sy_tasks s1) = 0 /\ works (booted s1) m_recovery = true
    /\ forallb (fun n => refusals 7 (sy_trace (unroll (booted s1) m_recovery n)) <=? 1) (seq 0 (S (length m_recovery))) = true
    /\ refusals 7 (sy_trace (unroll (booted s1) m_recovery (length m_recovery))) = 1).
  { by_run (fun s1 => (lookup 7 (stor (sy_w s1)), length (sy_tasks s1), works (booted s1) m_recovery,
      forallb (fun n => refusals 7 (sy_trace (unroll (booted s1) m_recovery n)) <=? 1) (seq 0 (S (length m_recovery))),
      refusals 7 (sy_trace (unroll (booted s1) m_recovery (length m_recovery))))).
    match goal with X : (_, _, _, _, _) = _ |- _ => injection X as X1 X2 X3 X4 X5 end. auto. }
  destruct E as (s1 & E1 & El & Et & W & Kr & Ke).
  destruct (steps_of_reach any_action any_state (sys0 0) s1) as [acts H]; [refine (exec_steps _ _ okA okS _ _ _ _ _ _ E1); constructor|].
  destruct (works_fair _ _ W) as (F1 & F2 & F3 & F4).
  exists 0%N, acts, s1, 1, (booted s1), (unroll (booted s1) m_recovery).
  split; [exact H|]. split; [apply (sexec_sound s1 (MBoot 1)); reflexivity|]. split; [exact El|].
  split; [now apply length_zero_iff_nil|]. split; [apply rc_refl; exact I|].
  split; [exact F1|]. split; [exact F2|]. split; [exact F3|]. split; [exact F4|]. split; [|eexists; exact Ke].
  intros m. destruct (le_lt_dec m (length m_recovery)) as [Hm|Hm].
  - rewrite forallb_forall in Kr. apply Nat.leb_le, Kr, in_seq. lia.
  - destruct (works_end _ _ _ W) as [_ K]. replace m with (length m_recovery + (m - length m_recovery)) by lia.
    rewrite K, unroll_ticks. cbn [sy_trace]. lia.
Qed.
(** The mails 7 and 8 are in the queue; reading 8 fails, 7 is refused once and then delivered. *)
Definition sparesb (id : nat) (s : sys) (act : action) (s' : sys) : bool :=
  match act with
  | AStep Failure => match rev (sy_trace s') with (_, ev) :: _ => match about ev with Some i => negb (i =? id) | None => false end | [] => false end
  | _ => calmb act
  end.
Lemma sparesb_sound id s act s' : sstep s act s' -> sparesb id s act s' = true -> spares id s act s'.
Proof.
  intros H. destruct act as [[]| | | |]; cbn; auto; try discriminate. inversion H; subst. cbn [sy_trace]. rewrite rev_app_distr. cbn.
  destruct (about ev) as [i|] eqn:Ea; [|discriminate]. destruct (Nat.eqb_spec i id); [discriminate|]. intros _. now exists n, ev, i.
Qed.
Definition m_two : list move :=
  [MStep 0 Yes; MStep 0 Yes; MStep 0 Yes; MStep 0 (Pick 8); MStep 0 Yes; MStep 0 Yes; MStep 0 (Pick 7); MStep 0 Yes; MStep 0 Yes] ++ m_scan_end
  ++ [MStep 1 Yes; MStep 1 Broken] ++ m_refused 2 ++ m_delivered 3.
Example C61_example : exists t0 acts s1 inst s2 e,
  steps (sys0 t0) acts s1 /\ sstep s1 (ABoot inst) s2 /\ lookup 7 (stor (sy_w s1)) = Some Queued
  /\ reach_by (spares_or_boots 7) s2 (e 0) /\ execution_by (spares 7) e /\ answered e /\ time_passes e /\ listings_end e
  /\ (forall m, refusals 7 (sy_trace (e m)) <= 1) /\ exists m, In (1, EGet 8 false) (sy_trace (e m)) /\ lookup 8 (stor (sy_w (e m))) = Some (Inflight 0).
Proof.
  assert (E : exists s1, execs okA okS (sys0 0) [MEnqueue 7; MEnqueue 8] = Some s1
    /\ lookup 7 (stor (sy_w s1)) = Some Queued /\ works_by (sparesb 7) (booted s1) m_two = true
    /\ forallb (fun n => refusals 7 (sy_trace (unroll (booted s1) m_two n)) <=? 1) (seq 0 (S (length m_two))) = true
    /\ sy_trace s1 = [] /\ sy_next s1 = 0
    /\ In (1, EGet 8 false) (sy_trace (unroll (booted s1) m_two (length m_two)))
    /\ lookup 8 (stor (sy_w (unroll (booted s1) m_two (length m_two)))) = Some (Inflight 0)).
  { eexists. split; [vm_compute; reflexivity|]. split; [reflexivity|]. split; [vm_compute; reflexivity|]. split; [vm_compute; reflexivity|].
    split; [reflexivity|]. split; [reflexivity|]. split; [|vm_compute; reflexivity]. vm_compute. tauto. }
  destruct E as (s1 & E1 & El & W & Kr & _ & _ & K1 & K2).
  destruct (steps_of_reach any_action any_state (sys0 0) s1) as [acts H]; [refine (exec_steps _ _ okA okS _ _ _ _ _ _ E1); constructor|].
  destruct (works_by_fair (sparesb 7) (spares 7) (sparesb_sound 7) (fun _ _ => I) _ _ W) as (F1 & F2 & F3 & F4).
  exists 0%N, acts, s1, 1, (booted s1), (unroll (booted s1) m_two).
  split; [exact H|]. split; [apply (sexec_sound s1 (MBoot 1)); reflexivity|]. split; [exact El|].
  split; [apply rb_refl|]. split; [exact F1|]. split; [exact F2|]. split; [exact F3|]. split; [exact F4|].
  split; [|eexists; split; [exact K1|exact K2]].
  intros m. destruct (le_lt_dec m (length m_two)) as [Hm|Hm].
  - rewrite forallb_forall in Kr. apply Nat.leb_le, Kr, in_seq. lia.
  - destruct (works_end _ _ _ W) as [_ K]. replace m with (length m_two + (m - length m_two)) by lia.
    rewrite K, unroll_ticks. cbn [sy_trace]. rewrite forallb_forall in Kr. apply Nat.leb_le, Kr, in_seq. lia.
Qed.
Print Assumptions C54_delivered_or_always_refused.
Print Assumptions C54_delivered.
Print Assumptions C61_delivered_or_always_refused.
Print Assumptions C61_delivered.
