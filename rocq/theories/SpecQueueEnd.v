(** Specification vocabulary for the result of the futures of the queue (C68). *)
From Coq Require Import List Arith NArith Bool.
Import ListNotations.
From Verif Require Import Queue SpecQueue.
Local Open Scope nat_scope.

(** The operation answered with an error. A refusal by the transport is no error. *)
Definition error_answer (ev : event) : bool :=
  match ev with
  | EStart _ None | EGet _ false | EDone _ false | ECancel _ false | ERecover _ false => true
  | _ => false
  end.
(** In this step an operation of task [n] (storage, listing or timer) fails. *)
Definition errs (n : nat) (s : sys) (act : action) (s' : sys) : Prop :=
  exists ev, does s s' n ev /\ (act = AStep Failure \/ error_answer ev = true).
(** Executions from [s0], noting whether an operation of task [n] failed. *)
Inductive watched (n : nat) (s0 : sys) : bool -> sys -> Prop :=
| wt_start : watched n s0 false s0
| wt_fine b s act s' : watched n s0 b s -> sstep s act s' -> ~ errs n s act s' -> watched n s0 b s'
| wt_error b s act s' : watched n s0 b s -> sstep s act s' -> errs n s act s' -> watched n s0 true s'.
(** The future of task [n] has completed, with [Ok] or with [Err]. *)
Definition completed (n : nat) (ok : bool) (s : sys) : Prop :=
  exists t, In t (sy_tasks s) /\ t_id t = n /\ t_prog t = PEnd ok.

(** Since [s1], nothing was done with the mail [id]. *)
Definition untouched (id : nat) (s1 s : sys) : Prop :=
  exists tr, sy_trace s = sy_trace s1 ++ tr /\ forall n ev, In (n, ev) tr -> about ev <> Some id.
(** Task [n] has started a task for the mail [id]. *)
Definition taken_up (n id : nat) (s : sys) : Prop :=
  In (n, ESpawn (CSend (Qm id))) (sy_trace s) \/ exists t tok, In (n, ESpawn (CFound t (Fm id tok))) (sy_trace s).
