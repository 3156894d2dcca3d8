(** Model of smtp-queue: the delivery tasks of one or several instances working
    on one storage.

    The crate defines two asynchronous functions ([run], [send_queued_mail]) and
    the traits [Storage], [Transport] they use; it contains no implementation of
    the traits.  The functions are modelled as programs over the operations of
    the traits ([prog]); the traits by their contract ([pstep]): what each
    operation may do to the storage and answer, failures included; the tokio
    scheduler, the clock, crashes, restarts and other users of the storage by
    arbitrary interleaving ([sstep]).

    A mail is represented by a number, its identity; its contents never change.
    An operation takes effect and answers in one step, any time after it was
    issued: a delay between effect and answer is indistinguishable from a delay
    of the next operation of the task. *)
From Coq Require Import List Arith NArith Bool Lia.
Import ListNotations.
Local Open Scope nat_scope.

(** Handles (mail.rs:12-24).  In flight, a mail has a name picked at random
    (lib.rs:35-39), modelled as a number never used before; [im_since], the time
    of [send_start], is only used to state the timing assumptions. *)
Inductive qmail := Qm (id : nat).
Record imail := Im { im_id : nat; im_tok : nat; im_since : N }.
Record fmail := Fm { fm_id : nat; fm_tok : nat }.

(** What the storage holds for a mail. *)
Inductive status := Queued | Inflight (tok : nat).
Definition storage := list (nat * status).
Fixpoint lookup (id : nat) (s : storage) : option status :=
  match s with [] => None | (i, x) :: s' => if i =? id then Some x else lookup id s' end.
Fixpoint del (id : nat) (s : storage) : storage :=
  match s with [] => [] | (i, x) :: s' => if i =? id then del id s' else (i, x) :: del id s' end.
Definition put (id : nat) (x : status) (s : storage) : storage := (id, x) :: del id s.

(** The listings [list_queue] and [find_inflight] return (storage.rs:12-13): what
    was there when it started, and what was listed since. *)
Record listing (A : Type) := Listing { li_must : list A; li_seen : list A }.
Arguments Listing {A} _ _.
Arguments li_must {A} _.
Arguments li_seen {A} _.
Inductive next (A : Type) := Item (a : A) | End | Error.
Arguments Item {A} _.
Arguments End {A}.
Arguments Error {A}.

(** ** Programs *)
(** The futures that are spawned, by the code that makes them. *)
Inductive call :=
| CRun                                   (* run.rs:12-52 *)
| CSend (q : qmail)                      (* send_queued_mail.rs:9-40 *)
| CFound (startup : N) (f : fmail)       (* run.rs:45-48 *)
| CQueueLoop (startup : N) (l : listing nat)              (* run.rs:28-35: for_each *)
| CFindLoop (startup : N) (l : listing (nat * nat)).      (* run.rs:40-50: for_each *)

(** A future: the operation it waits for and what it does with the answer. *)
Inductive prog :=
| PEnd (ok : bool)
| PNow (k : N -> prog)
| PListQueue (k : listing nat -> prog)
| PQueueNext (l : listing nat) (k : listing nat -> next qmail -> prog)
| PFindInflight (k : listing (nat * nat) -> prog)
| PFindNext (l : listing (nat * nat)) (k : listing (nat * nat) -> next fmail -> prog)
| PDelay (deadline : N) (k : bool -> prog)
| PCancelFound (f : fmail) (k : option qmail -> prog)
| PSendStart (q : qmail) (k : option imail -> prog)
| PGetMail (i : imail) (k : option nat -> prog)
| PTransport (m : nat) (k : bool -> prog)
| PSendDone (i : imail) (k : bool -> prog)
| PSendCancel (i : imail) (k : option qmail -> prog)
| PSpawn (c : call) (k : prog)
| PGoto (c : call).

(** send_queued_mail.rs:22-39, closure by closure. *)
Definition after_cancel (r : option qmail) : prog :=          (* 32-34 *)
  match r with None => PEnd false | Some q => PSpawn (CSend q) (PEnd true) end.
Definition after_transport (i : imail) (ok : bool) : prog :=  (* 27-36 *)
  if ok then PSendDone i PEnd else PSendCancel i after_cancel.
Definition after_get (i : imail) (r : option nat) : prog :=   (* 25-27 *)
  match r with None => PEnd false | Some m => PTransport m (after_transport i) end.
Definition after_start (r : option imail) : prog :=           (* 25 *)
  match r with None => PEnd false | Some i => PGetMail i (after_get i) end.
Definition send_queued_mail (q : qmail) : prog := PSendStart q after_start.   (* 23-24 *)

(** run.rs:24-51. *)
Definition after_found (r : option qmail) : prog :=           (* 48 *)
  match r with None => PEnd false | Some q => PGoto (CSend q) end.
Definition after_delay (f : fmail) (ok : bool) : prog :=      (* 46-47 *)
  if ok then PCancelFound f after_found else PEnd false.
Definition recovery_delay : N := 3600.                        (* 45 *)
Definition found (startup : N) (f : fmail) : prog :=          (* 45-48 *)
  PDelay (startup + recovery_delay) (after_delay f).
Definition find_item (startup : N) (l : listing (nat * nat)) (r : next fmail) : prog :=   (* 40-50 *)
  match r with
  | Item f => PSpawn (CFound startup f) (PGoto (CFindLoop startup l))
  | End => PEnd true
  | Error => PEnd false
  end.
Definition find_loop (startup : N) (l : listing (nat * nat)) : prog := PFindNext l (find_item startup).
Definition queue_item (startup : N) (l : listing nat) (r : next qmail) : prog :=          (* 29-36 *)
  match r with
  | Item q => PSpawn (CSend q) (PGoto (CQueueLoop startup l))
  | End => PFindInflight (fun l' => PGoto (CFindLoop startup l'))
  | Error => PEnd false
  end.
Definition queue_loop (startup : N) (l : listing nat) : prog := PQueueNext l (queue_item startup).
Definition run : prog :=                                      (* 24-29 *)
  PNow (fun startup => PListQueue (fun l => PGoto (CQueueLoop startup l))).

Definition body (c : call) : prog :=
  match c with
  | CRun => run
  | CSend q => send_queued_mail q
  | CFound startup f => found startup f
  | CQueueLoop startup l => queue_loop startup l
  | CFindLoop startup l => find_loop startup l
  end.

(** ** The contract of storage and transport *)
(** [accepted]: the mails for which [Transport::send] returned [Ok]. *)
Record world := World { now : N; stor : storage; fresh : nat; accepted : list nat }.
Definition set_stor (w : world) (s : storage) : world := World (now w) s (fresh w) (accepted w).

(** What a task is seen to do. *)
Inductive event :=
| ETick                                  (* an internal step *)
| EStart (id : nat) (r : option nat)     (* send_start: the name in flight, or an error *)
| EGet (id : nat) (ok : bool)
| ESend (id : nat) (ok : bool)           (* transport.send: the verdict *)
| EDone (id : nat) (ok : bool)           (* send_done *)
| ECancel (id : nat) (ok : bool)         (* send_cancel *)
| EFound (id : nat)                      (* find_inflight listed the mail *)
| ERecover (id : nat) (ok : bool)        (* cancel_found_inflight *)
| ESpawn (c : call)
| EListed (id : nat).                    (* list_queue listed the mail *)

Inductive label := Normal | Failure.

(** [s'] is [s] or the storage after the operation: a failing operation may have
    taken effect. *)
Definition either {A} (a b x : A) : Prop := x = a \/ x = b.

Definition queued_ids (s : storage) : list nat :=
  map fst (filter (fun e => match snd e with Queued => true | _ => false end) s).
Definition inflight_ids (s : storage) : list (nat * nat) :=
  flat_map (fun e => match snd e with Inflight tok => [(fst e, tok)] | _ => [] end) s.

(** One operation of a task: label, event, what the task becomes, what it spawns. *)
Inductive pstep (w : world) : prog -> label -> event -> prog -> list call -> world -> Prop :=
| ps_now k : pstep w (PNow k) Normal ETick (k (now w)) [] w
| ps_goto c : pstep w (PGoto c) Normal ETick (body c) [] w
| ps_spawn c k : pstep w (PSpawn c k) Normal (ESpawn c) k [c] w
| ps_delay t k : (t <= now w)%N -> pstep w (PDelay t k) Normal ETick (k true) [] w
| ps_delay_fail t k : pstep w (PDelay t k) Failure ETick (k false) [] w
(* a listing gives mails that are there, in any order, and all those that were
   there when it started and still are *)
| ps_list k : pstep w (PListQueue k) Normal ETick (k (Listing (queued_ids (stor w)) [])) [] w
| ps_list_item l k id : lookup id (stor w) = Some Queued ->
    pstep w (PQueueNext l k) Normal (EListed id) (k (Listing (li_must l) (id :: li_seen l)) (Item (Qm id))) [] w
| ps_list_end l k : (forall id, In id (li_must l) -> lookup id (stor w) = Some Queued -> In id (li_seen l)) ->
    pstep w (PQueueNext l k) Normal ETick (k l End) [] w
| ps_list_fail l k : pstep w (PQueueNext l k) Failure ETick (k l Error) [] w
| ps_find k : pstep w (PFindInflight k) Normal ETick (k (Listing (inflight_ids (stor w)) [])) [] w
| ps_find_item l k id tok : lookup id (stor w) = Some (Inflight tok) ->
    pstep w (PFindNext l k) Normal (EFound id) (k (Listing (li_must l) ((id, tok) :: li_seen l)) (Item (Fm id tok))) [] w
| ps_find_end l k :
    (forall id tok, In (id, tok) (li_must l) -> lookup id (stor w) = Some (Inflight tok) -> In (id, tok) (li_seen l)) ->
    pstep w (PFindNext l k) Normal ETick (k l End) [] w
| ps_find_fail l k : pstep w (PFindNext l k) Failure ETick (k l Error) [] w
(* send_start moves a queued mail in flight *)
| ps_start id k : lookup id (stor w) = Some Queued ->
    pstep w (PSendStart (Qm id) k) Normal (EStart id (Some (fresh w))) (k (Some (Im id (fresh w) (now w)))) []
          (World (now w) (put id (Inflight (fresh w)) (stor w)) (S (fresh w)) (accepted w))
| ps_start_stale id k : lookup id (stor w) <> Some Queued ->
    pstep w (PSendStart (Qm id) k) Normal (EStart id None) (k None) [] w
| ps_start_fail id k s' :
    either (stor w) (match lookup id (stor w) with Some Queued => put id (Inflight (fresh w)) (stor w) | _ => stor w end) s' ->
    pstep w (PSendStart (Qm id) k) Failure (EStart id None) (k None) [] (World (now w) s' (S (fresh w)) (accepted w))
(* get_mail reads the mail under its name in flight *)
| ps_get i k : pstep w (PGetMail i k) Normal (EGet (im_id i) true) (k (Some (im_id i))) [] w
| ps_get_stale i k : lookup (im_id i) (stor w) <> Some (Inflight (im_tok i)) ->
    pstep w (PGetMail i k) Normal (EGet (im_id i) false) (k None) [] w
| ps_get_fail i k : pstep w (PGetMail i k) Failure (EGet (im_id i) false) (k None) [] w
(* the transport decides freely *)
| ps_send_ok m k : pstep w (PTransport m k) Normal (ESend m true) (k true) []
    (World (now w) (stor w) (fresh w) (accepted w ++ [m]))
| ps_send_err m k : pstep w (PTransport m k) Normal (ESend m false) (k false) [] w
(* send_done removes the mail, send_cancel and cancel_found_inflight put it back,
   if it is still there under the name in flight *)
| ps_done i k : lookup (im_id i) (stor w) = Some (Inflight (im_tok i)) ->
    pstep w (PSendDone i k) Normal (EDone (im_id i) true) (k true) [] (set_stor w (del (im_id i) (stor w)))
| ps_done_stale i k : lookup (im_id i) (stor w) <> Some (Inflight (im_tok i)) ->
    pstep w (PSendDone i k) Normal (EDone (im_id i) false) (k false) [] w
| ps_done_fail i k s' :
    either (stor w) (match lookup (im_id i) (stor w) with
                     | Some (Inflight t) => if t =? im_tok i then del (im_id i) (stor w) else stor w
                     | _ => stor w end) s' ->
    pstep w (PSendDone i k) Failure (EDone (im_id i) false) (k false) [] (set_stor w s')
| ps_cancel i k : lookup (im_id i) (stor w) = Some (Inflight (im_tok i)) ->
    pstep w (PSendCancel i k) Normal (ECancel (im_id i) true) (k (Some (Qm (im_id i)))) []
          (set_stor w (put (im_id i) Queued (stor w)))
| ps_cancel_stale i k : lookup (im_id i) (stor w) <> Some (Inflight (im_tok i)) ->
    pstep w (PSendCancel i k) Normal (ECancel (im_id i) false) (k None) [] w
| ps_cancel_fail i k s' :
    either (stor w) (match lookup (im_id i) (stor w) with
                     | Some (Inflight t) => if t =? im_tok i then put (im_id i) Queued (stor w) else stor w
                     | _ => stor w end) s' ->
    pstep w (PSendCancel i k) Failure (ECancel (im_id i) false) (k None) [] (set_stor w s')
| ps_recover f k : lookup (fm_id f) (stor w) = Some (Inflight (fm_tok f)) ->
    pstep w (PCancelFound f k) Normal (ERecover (fm_id f) true) (k (Some (Qm (fm_id f)))) []
          (set_stor w (put (fm_id f) Queued (stor w)))
| ps_recover_stale f k : lookup (fm_id f) (stor w) <> Some (Inflight (fm_tok f)) ->
    pstep w (PCancelFound f k) Normal (ERecover (fm_id f) false) (k None) [] w
| ps_recover_fail f k s' :
    either (stor w) (match lookup (fm_id f) (stor w) with
                     | Some (Inflight t) => if t =? fm_tok f then put (fm_id f) Queued (stor w) else stor w
                     | _ => stor w end) s' ->
    pstep w (PCancelFound f k) Failure (ERecover (fm_id f) false) (k None) [] (set_stor w s').

(** ** The system *)
(** A task: its number, the instance (process) it belongs to, what it does next. *)
Record task := Task { t_id : nat; t_inst : nat; t_prog : prog }.
(** [mails]: the mails ever enqueued successfully; [trace]: what the tasks did. *)
Record sys := Sys { sy_w : world; sy_tasks : list task; sy_next : nat; sy_mails : list nat; sy_trace : list (nat * event) }.

Fixpoint number {A} (n : nat) (l : list A) : list (nat * A) :=
  match l with [] => [] | x :: l' => (n, x) :: number (S n) l' end.
Definition new_tasks (n inst : nat) (cs : list call) : list task :=
  map (fun c => Task (fst c) inst (body (snd c))) (number n cs).

Inductive action :=
| AStep (lab : label)    (* a task does an operation *)
| AEnqueue (id : nat)    (* Storage::enqueue by a server *)
| ATick                  (* time passes *)
| ABoot (inst : nat)     (* an instance is started: it spawns [run] *)
| ACrash (inst : nat).   (* an instance dies *)

Inductive sstep : sys -> action -> sys -> Prop :=
| ss_task w a n inst p b nx ms tr lab ev p' cs w' :
    pstep w p lab ev p' cs w' ->
    sstep (Sys w (a ++ Task n inst p :: b) nx ms tr) (AStep lab)
          (Sys w' (a ++ Task n inst p' :: b ++ new_tasks nx inst cs) (nx + length cs) ms (tr ++ [(n, ev)]))
| ss_enqueue w ts nx ms tr id :
    lookup id (stor w) = None -> ~ In id ms ->
    sstep (Sys w ts nx ms tr) (AEnqueue id) (Sys (set_stor w (put id Queued (stor w))) ts nx (ms ++ [id]) tr)
| ss_tick w ts nx ms tr dt :
    sstep (Sys w ts nx ms tr) ATick (Sys (World (now w + dt) (stor w) (fresh w) (accepted w)) ts nx ms tr)
| ss_boot w ts nx ms tr inst :
    sstep (Sys w ts nx ms tr) (ABoot inst) (Sys w (ts ++ [Task nx inst run]) (S nx) ms tr)
| ss_crash w ts nx ms tr inst :
    sstep (Sys w ts nx ms tr) (ACrash inst) (Sys w (filter (fun t => negb (t_inst t =? inst)) ts) nx ms tr).

(** Executions: from nothing stored and nothing running. *)
Definition sys0 (t0 : N) : sys := Sys (World t0 [] 0 []) [] 0 [] [].
Inductive steps : sys -> list action -> sys -> Prop :=
| st_nil s : steps s [] s
| st_snoc s acts s1 act s2 : steps s acts s1 -> sstep s1 act s2 -> steps s (acts ++ [act]) s2.
