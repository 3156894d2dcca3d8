(** What a task does from its start to its end. *)
From Coq Require Import List Arith NArith Bool Lia.
Import ListNotations.
From Verif Require Import Queue SpecQueue QueueProofs.
Local Open Scope nat_scope.

(** What a task started for [c] has done when its attempt at the mail [id] begins. *)
Inductive opens : call -> nat -> list event -> Prop :=
| op_send id : opens (CSend (Qm id)) id []
| op_found st id tok : opens (CFound st (Fm id tok)) id [ERecover id true].
Lemma opens_life c id h w : opens c id h -> attempt id w -> life_of c (h ++ w).
Proof. intros H K. destruct H; now constructor. Qed.

(** Where a task started for [c] is, given what it did. *)
Inductive stage : call -> list event -> prog -> Prop :=
| sg_end c h ok : life_of c h -> stage c h (PEnd ok)
| sg_send c h id : opens c id h -> stage c h (send_queued_mail (Qm id))
| sg_goto c h id : opens c id h -> stage c h (PGoto (CSend (Qm id)))
| sg_get c h id tok t : opens c id h -> stage c (h ++ [EStart id (Some tok)]) (PGetMail (Im id tok t) (after_get (Im id tok t)))
| sg_transport c h id tok t : opens c id h ->
    stage c (h ++ [EStart id (Some tok); EGet id true]) (PTransport id (after_transport (Im id tok t)))
| sg_done c h id tok t : opens c id h ->
    stage c (h ++ [EStart id (Some tok); EGet id true; ESend id true]) (PSendDone (Im id tok t) PEnd)
| sg_cancel c h id tok t : opens c id h ->
    stage c (h ++ [EStart id (Some tok); EGet id true; ESend id false]) (PSendCancel (Im id tok t) after_cancel)
| sg_retry c h id tok : opens c id h ->
    stage c (h ++ [EStart id (Some tok); EGet id true; ESend id false; ECancel id true]) (PSpawn (CSend (Qm id)) (PEnd true))
| sg_wait st id tok : stage (CFound st (Fm id tok)) [] (found st (Fm id tok))
| sg_recover st id tok : stage (CFound st (Fm id tok)) [] (PCancelFound (Fm id tok) after_found)
| sg_run : stage CRun [] run
| sg_list t : stage CRun [] (PListQueue (fun l => PGoto (CQueueLoop t l)))
| sg_loop ids t l : stage CRun (map (fun id => ESpawn (CSend (Qm id))) ids) (queue_loop t l)
| sg_loop_goto ids t l : stage CRun (map (fun id => ESpawn (CSend (Qm id))) ids) (PGoto (CQueueLoop t l))
| sg_loop_spawn ids t l id :
    stage CRun (map (fun id => ESpawn (CSend (Qm id))) ids) (PSpawn (CSend (Qm id)) (PGoto (CQueueLoop t l)))
| sg_find ids t : stage CRun (map (fun id => ESpawn (CSend (Qm id))) ids) (PFindInflight (fun l => PGoto (CFindLoop t l)))
| sg_find_loop h t l : scan h -> stage CRun h (find_loop t l)
| sg_find_goto h t l : scan h -> stage CRun h (PGoto (CFindLoop t l))
| sg_find_spawn h t l id tok : scan h -> stage CRun (h ++ [EFound id]) (PSpawn (CFound t (Fm id tok)) (PGoto (CFindLoop t l))).

Lemma stage_prefix c h p : stage c h p -> exists w, life_of c w /\ prefix h w.
Proof.
  assert (R : forall c w, life_of c w -> exists w', life_of c w' /\ prefix w w').
  { intros c' w H. exists w. split; [exact H|exists []; now rewrite app_nil_r]. }
  assert (O : forall c id h w r, opens c id h -> attempt id (w ++ r) -> exists w', life_of c w' /\ prefix (h ++ w) w').
  { intros c' id h' w r H K. exists (h' ++ w ++ r). split; [eapply opens_life; eauto|exists r; now rewrite app_assoc]. }
  intros H. destruct H; try (now apply R).
  - rewrite <- (app_nil_r h). eapply (O _ _ _ [] [EStart id None]); [eassumption|constructor].
  - rewrite <- (app_nil_r h). eapply (O _ _ _ [] [EStart id None]); [eassumption|constructor].
  - eapply (O _ _ _ _ [EGet id false]); [eassumption|constructor].
  - eapply (O _ _ _ _ [ESend id true; EDone id true]); [eassumption|constructor].
  - eapply (O _ _ _ _ [EDone id true]); [eassumption|constructor].
  - eapply (O _ _ _ _ [ECancel id false]); [eassumption|constructor].
  - eapply (O _ _ _ _ [ESpawn (CSend (Qm id))]); [eassumption|constructor].
  - apply R. constructor.
  - apply R. constructor.
  - apply R. constructor. apply (scan_ids []).
  - apply R. constructor. apply (scan_ids []).
  - apply R. constructor. apply scan_ids.
  - apply R. constructor. apply scan_ids.
  - apply R. constructor. apply scan_ids.
  - apply R. constructor. apply scan_ids.
  - apply R. now constructor.
  - apply R. now constructor.
  - exists (h ++ [EFound id; ESpawn (CFound t (Fm id tok))]). split; [constructor; now apply scan_more|].
    exists [ESpawn (CFound t (Fm id tok))]. now rewrite <- app_assoc.
Qed.

Lemma pstep_stage c w p lab ev p' cs w' h : stage c h p -> pstep w p lab ev p' cs w' -> stage c (h ++ shows ev) p'.
Proof.
  intros Hp H.
  inversion Hp; subst; clear Hp; cbn in H; inversion H; subst; clear H; unfold shows; cbn [visible im_id fm_id im_tok fm_tok];
    rewrite ?app_nil_r; rewrite <- ?app_assoc; cbn [app].
  all: try (now constructor).
  all: try (apply sg_end; eapply opens_life; [eassumption|constructor]; fail).
  all: try (apply sg_end; constructor; try apply scan_ids; assumption).
  - apply sg_goto. constructor.
  - apply (sg_loop_goto []).
  - rewrite scan_ids_snoc. apply sg_loop_goto.
  - apply sg_find_goto, scan_ids.
  - apply sg_find_goto. now apply scan_more.
Qed.

(** The calls a task makes. *)
Lemma pstep_spawns w p lab ev p' cs w' : pstep w p lab ev p' cs w' -> cs = match ev with ESpawn c => [c] | _ => [] end.
Proof. intros H; inversion H; reflexivity. Qed.
Lemma point_spawns ms acc h p w lab ev p' cs w' c : point ms acc h p -> pstep w p lab ev p' cs w' -> In c cs -> stage c [] (body c).
Proof.
  intros Hp H Hi. inversion Hp; subst; clear Hp; cbn in H; inversion H; subst; clear H; try (now destruct Hi); destruct Hi as [<-|[]]; cbn [body].
  - apply sg_send. constructor.
  - apply sg_send. constructor.
  - apply sg_wait.
Qed.

(** Every task is at a stage of the call it was started for. *)
Definition told (n : nat) (c : call) (s : sys) : Prop :=
  (forall t, In t (sy_tasks s) -> t_id t = n -> stage c (history n (sy_trace s)) (t_prog t))
  /\ exists w, life_of c w /\ prefix (history n (sy_trace s)) w.
Lemma told_step n c s act s' : inv s -> n < sy_next s -> told n c s -> sstep s act s' -> n < sy_next s' /\ told n c s'.
Proof.
  intros I Hn [T1 T2] H. inversion H; subst; cbn [sy_w sy_tasks sy_next sy_mails sy_trace] in *;
    unfold told; cbn [sy_w sy_tasks sy_next sy_mails sy_trace].
  - split; [lia|]. pose proof (iv_nodup _ I) as ND. cbn [sy_tasks] in ND. rewrite map_app in ND. cbn [map t_id] in ND.
    destruct (nodup_mid _ _ _ ND) as [Na Nb]. destruct (Nat.eq_dec n0 n) as [->|Hne].
    + assert (S' : stage c (history n (tr ++ [(n, ev)])) p').
      { rewrite history_snoc, Nat.eqb_refl. cbn [andb]. change (if visible ev then [ev] else []) with (shows ev).
        eapply pstep_stage; [|eassumption]. apply (T1 (Task n inst p)); [apply in_mid; auto|reflexivity]. }
      split; [|now eapply stage_prefix; eauto].
      intros t Ht Et. rewrite in_mid, in_app_iff in Ht. destruct Ht as [Ht|[->|[Ht|Ht]]]; [|exact S'| |].
      * destruct Na. rewrite <- Et. now apply in_map.
      * destruct Nb. rewrite <- Et. now apply in_map.
      * apply new_tasks_in in Ht. lia.
    + assert (E : history n (tr ++ [(n0, ev)]) = history n tr).
      { rewrite history_snoc. destruct (Nat.eqb_spec n0 n); [contradiction|]. cbn. apply app_nil_r. }
      rewrite E. split; [|exact T2]. intros t Ht Et. rewrite in_mid, in_app_iff in Ht. destruct Ht as [Ht|[->|[Ht|Ht]]].
      * apply T1; [apply in_mid; auto|exact Et].
      * contradiction.
      * apply T1; [apply in_mid; auto|exact Et].
      * apply new_tasks_in in Ht. lia.
  - split; [exact Hn|split; assumption].
  - split; [exact Hn|split; assumption].
  - split; [lia|]. split; [|exact T2]. intros t Ht Et. apply in_app_or in Ht. destruct Ht as [Ht|[<-|[]]]; [now apply T1|cbn in Et; lia].
  - split; [exact Hn|]. split; [|exact T2]. intros t Ht Et. apply filter_In in Ht. now apply T1.
Qed.

Lemma starts_told s act s' c : inv s -> sstep s act s' -> starts s act s' c -> sy_next s < sy_next s' /\ told (sy_next s) c s'.
Proof.
  intros I H B. pose proof (iv_unused _ I (sy_next s) (le_n _)) as U.
  assert (K : sy_next s < sy_next s' /\ history (sy_next s) (sy_trace s') = [] /\ stage c [] (body c)
    /\ forall t, In t (sy_tasks s') -> t_id t = sy_next s -> t_prog t = body c).
  { pose proof (iv_below _ I) as Hb. rewrite Forall_forall in Hb.
    destruct B as [[m E]|[-> [inst ->]]].
    - inversion H; subst; cbn [sy_w sy_tasks sy_next sy_mails sy_trace] in *;
        try (apply (f_equal (@length _)) in E; rewrite app_length in E; cbn in E; lia).
      apply app_inv_head in E. injection E as -> ->. pose proof (pstep_spawns _ _ _ _ _ _ _ H0) as Ecs. cbn in Ecs. subst cs. cbn [length].
      pose proof (iv_points _ I) as Hp. rewrite Forall_forall in Hp. cbn [sy_tasks sy_mails sy_w sy_trace] in Hp.
      assert (Ht : In (Task m inst p) (a ++ Task m inst p :: b)) by (apply in_mid; auto).
      pose proof (Hb _ Ht) as Hm. cbn [t_id] in Hm. split; [lia|].
      split; [rewrite history_snoc; destruct (Nat.eqb_spec m nx); [lia|]; cbn; now rewrite app_nil_r|].
      split; [eapply point_spawns; [apply (Hp _ Ht)|eassumption|now left]|].
      intros t Hi Et. rewrite in_mid, in_app_iff in Hi. destruct Hi as [Hi|[->|[Hi|Hi]]].
      + assert (X : In t (a ++ Task m inst p :: b)) by (apply in_mid; auto). apply Hb in X. lia.
      + cbn in Et. lia.
      + assert (X : In t (a ++ Task m inst p :: b)) by (apply in_mid; auto). apply Hb in X. lia.
      + apply new_tasks_in in Hi. destruct Hi as (_ & c' & [<-|[]] & E & _). exact E.
    - inversion H; subst. cbn [sy_w sy_tasks sy_next sy_mails sy_trace] in *. split; [lia|]. split; [exact U|]. split; [constructor|].
      intros t Hi Et. apply in_app_or in Hi. destruct Hi as [Hi|[<-|[]]]; [apply Hb in Hi; lia|reflexivity]. }
  destruct K as (K1 & K2 & K3 & K4). split; [exact K1|]. unfold told. rewrite K2. split; [|eapply stage_prefix; exact K3].
  intros t Ht Et. rewrite (K4 t Ht Et). exact K3.
Qed.
Lemma steps_told n c s acts s' : steps s acts s' -> inv s -> n < sy_next s -> told n c s -> inv s' /\ n < sy_next s' /\ told n c s'.
Proof.
  induction 1 as [s|s acts s1 act s2 H IH Hs]; intros I Hn T; [auto|]. destruct (IH I Hn T) as (I1 & Hn1 & T1).
  split; [eapply inv_step; eauto|]. eapply told_step; eauto.
Qed.
Lemma stage_ended c h ok : stage c h (PEnd ok) -> life_of c h.
Proof. intros H. inversion H; subst; assumption. Qed.
