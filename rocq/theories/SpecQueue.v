(** Specification vocabulary for the queue (C42-C45, C48, C49, C54, C60, C61). *)
From Coq Require Import List Arith NArith Bool Lia.
Import ListNotations.
From Verif Require Import Queue.
Local Open Scope nat_scope.

(** What task [n] was seen to do, in order (that [list_queue] has listed a mail shows in
    the task that is started for it). *)
Definition visible (e : event) : bool := match e with ETick | EListed _ => false | _ => true end.
Definition history (n : nat) (tr : list (nat * event)) : list event :=
  map snd (filter (fun x => (fst x =? n) && visible (snd x)) tr).

(** One delivery attempt for the mail [id], from beginning to end. *)
Inductive attempt (id : nat) : list event -> Prop :=
| at_gone : attempt id [EStart id None]
| at_unreadable tok : attempt id [EStart id (Some tok); EGet id false]
| at_accepted tok ok : attempt id [EStart id (Some tok); EGet id true; ESend id true; EDone id ok]
| at_stuck tok : attempt id [EStart id (Some tok); EGet id true; ESend id false; ECancel id false]
| at_retry tok : attempt id
    [EStart id (Some tok); EGet id true; ESend id false; ECancel id true; ESpawn (CSend (Qm id))].
(** The startup scan: a task for each mail listed, then one for each mail found. *)
Inductive scan_found : list event -> Prop :=
| sf_nil : scan_found []
| sf_cons id startup tok w : scan_found w -> scan_found (w ++ [EFound id; ESpawn (CFound startup (Fm id tok))]).
Inductive scan : list event -> Prop :=
| sc ids w : scan_found w -> scan (map (fun id => ESpawn (CSend (Qm id))) ids ++ w).
(** The whole life of a task. *)
Inductive life : list event -> Prop :=
| lf_none : life []
| lf_send id w : attempt id w -> life w
| lf_gone id : life [ERecover id false]
| lf_recovered id w : attempt id w -> life (ERecover id true :: w)
| lf_scan w : scan w -> life w.
(** The same by the task: what a task started for the call [c] does until it ends. *)
Inductive life_of : call -> list event -> Prop :=
| lo_send id w : attempt id w -> life_of (CSend (Qm id)) w
| lo_timer startup f : life_of (CFound startup f) []     (* the timer failed *)
| lo_gone startup id tok : life_of (CFound startup (Fm id tok)) [ERecover id false]
| lo_recovered startup id tok w : attempt id w -> life_of (CFound startup (Fm id tok)) (ERecover id true :: w)
| lo_run w : scan w -> life_of CRun w.
Definition prefix {A} (a b : list A) : Prop := exists r, b = a ++ r.
(** The step [s], [act], [s'] starts a task for the call [c]; tasks are numbered in the order they are started. *)
Definition starts (s : sys) (act : action) (s' : sys) (c : call) : Prop :=
  (exists n, sy_trace s' = sy_trace s ++ [(n, ESpawn c)]) \/ (c = CRun /\ exists inst, act = ABoot inst).
Definition ended (n : nat) (s : sys) : Prop := exists t ok, In t (sy_tasks s) /\ t_id t = n /\ t_prog t = PEnd ok.

(** Task [t] is handing the mail [id] to the transport. *)
Definition sending (id : nat) (t : task) : Prop := exists k, t_prog t = PTransport id k.
(** Task [t] is in an attempt it began at time [since]. *)
Definition attempting (since : N) (t : task) : Prop :=
  match t_prog t with
  | PGetMail i _ | PSendDone i _ | PSendCancel i _ => im_since i = since
  | PTransport _ k => exists i, k = after_transport i /\ im_since i = since
  | _ => False
  end.
(** Task [t] is scanning for mails in flight, having started at [startup]. *)
Definition finding (startup : N) (t : task) : Prop :=
  exists l, t_prog t = find_loop startup l.
(** Attempts take less than [D], scans end within [L] of the start of the instance. *)
Definition quick (D L : N) (s : sys) : Prop :=
  (forall t since, In t (sy_tasks s) -> attempting since t -> (now (sy_w s) < since + D)%N)
  /\ (forall t startup, In t (sy_tasks s) -> finding startup t -> (now (sy_w s) <= startup + L)%N).

(** Reachable by actions in [A] through states in [P] only. *)
Inductive reach (A : action -> Prop) (P : sys -> Prop) (s0 : sys) : sys -> Prop :=
| rc_refl : P s0 -> reach A P s0 s0
| rc_step s act s' : reach A P s0 s -> A act -> sstep s act s' -> P s' -> reach A P s0 s'.
Definition any_action (_ : action) : Prop := True.
Definition any_state (_ : sys) : Prop := True.
(** No storage or timer operation fails, no instance crashes or is started. *)
Definition calm (a : action) : Prop := match a with AStep Normal | AEnqueue _ | ATick => True | _ => False end.
(** The same, but instances may be started. *)
Definition no_failure (a : action) : Prop :=
  match a with AStep Normal | AEnqueue _ | ATick | ABoot _ => True | _ => False end.

(** The mail an operation is about; none for listings and timers. *)
Definition about (e : event) : option nat :=
  match e with
  | EStart i _ | EGet i _ | ESend i _ | EDone i _ | ECancel i _ | ERecover i _ => Some i
  | _ => None
  end.
(** Like [calm], but storage operations about mails other than [id] may fail. *)
Definition spares (id : nat) (s : sys) (act : action) (s' : sys) : Prop :=
  match act with
  | AStep Failure => exists n ev i, sy_trace s' = sy_trace s ++ [(n, ev)] /\ about ev = Some i /\ i <> id
  | _ => calm act
  end.
(** The same, but instances may be started. *)
Definition spares_or_boots (id : nat) (s : sys) (act : action) (s' : sys) : Prop :=
  spares id s act s' \/ exists inst, act = ABoot inst.
(** Reachable by such steps only. *)
Inductive reach_by (R : sys -> action -> sys -> Prop) (s0 : sys) : sys -> Prop :=
| rb_refl : reach_by R s0 s0
| rb_step s act s' : reach_by R s0 s -> R s act s' -> sstep s act s' -> reach_by R s0 s'.

(** How often the transport refused the mail [id]. *)
Definition refusals (id : nat) (tr : list (nat * event)) : nat :=
  length (filter (fun x => match snd x with ESend i false => i =? id | _ => false end) tr).

(** ** Infinite executions *)
Definition execution (A : action -> Prop) (e : nat -> sys) : Prop := forall n, exists act, A act /\ sstep (e n) act (e (S n)).
Definition execution_by (R : sys -> action -> sys -> Prop) (e : nat -> sys) : Prop :=
  forall n, exists act, R (e n) act (e (S n)) /\ sstep (e n) act (e (S n)).
(** The operation the task waits for can be answered; a delay, once it is over. *)
Definition due (w : world) (p : prog) : Prop :=
  match p with PEnd _ => False | PDelay t _ => (t <= now w)%N | _ => True end.
(** Every operation that can be answered is answered at last. *)
Definition answered (e : nat -> sys) : Prop := forall n t, In t (sy_tasks (e n)) -> due (sy_w (e n)) (t_prog t) ->
  exists m ev, n <= m /\ sy_trace (e (S m)) = sy_trace (e m) ++ [(t_id t, ev)].
(** Time goes on. *)
Definition time_passes (e : nat -> sys) : Prop := forall n T, exists m, n <= m /\ (T <= now (sy_w (e m)))%N.
(** Listings are finite: from some time on, a task no longer asks for the next item. *)
Definition listings_end (e : nat -> sys) : Prop := forall i, exists n, forall m t, n <= m -> In t (sy_tasks (e m)) -> t_id t = i ->
  match t_prog t with PQueueNext _ _ | PFindNext _ _ => False | _ => True end.

(** The mails the transport accepted, in order. *)
Definition accepts (tr : list (nat * event)) : list nat :=
  flat_map (fun x => match snd x with ESend id true => [id] | _ => [] end) tr.

(** A task about to run [p]; one about to attempt the mail [id], which is queued. *)
Definition has (s : sys) (p : prog) : Prop := exists t, In t (sy_tasks s) /\ t_prog t = p.
Definition waiting (id : nat) (s : sys) : Prop := has s (send_queued_mail (Qm id)) /\ lookup id (stor (sy_w s)) = Some Queued.
(** From any state, at one instant, nothing else moving. *)
Definition only_steps (a : action) : Prop := a = AStep Normal.

(** Task number [n] belongs to the instance [inst]. *)
Definition works_for (inst n : nat) (s : sys) : Prop := exists t, In t (sy_tasks s) /\ t_id t = n /\ t_inst t = inst.
(** The task [n] does [ev] in the step from [s] to [s']. *)
Definition does (s s' : sys) (n : nat) (ev : event) : Prop := sy_trace s' = sy_trace s ++ [(n, ev)].
