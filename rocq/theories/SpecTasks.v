(** Specification of how many tasks the queue keeps running. *)
From Coq Require Import List Arith NArith Bool.
Import ListNotations.
From Verif Require Import Queue SpecQueue.
Local Open Scope nat_scope.

(** The task is not over. *)
Definition alive (t : task) : bool := match t_prog t with PEnd _ => false | _ => true end.
(** It is for a mail in [f]: it waits to do something with it (a timer: it will then
    put it back; a task about to start its own successor still counts). *)
Definition on (f : nat -> bool) (t : task) : bool :=
  match t_prog t with
  | PSendStart (Qm id) _ | PGoto (CSend (Qm id)) | PSpawn (CSend (Qm id)) (PEnd _) => f id
  | PGetMail i _ | PSendDone i _ | PSendCancel i _ => f (im_id i)
  | PTransport m _ => f m
  | PCancelFound q _ => f (fm_id q)
  | PDelay _ k => match k true with PCancelFound q _ => f (fm_id q) | _ => false end
  | _ => false
  end.
Definition just (id : nat) : nat -> bool := Nat.eqb id.
Definition any (_ : nat) : bool := true.

(** How often startups have listed mails in [f], queued or in flight. *)
Definition lists (f : nat -> bool) (e : event) : bool := match e with EListed id | EFound id => f id | _ => false end.
Definition listed (f : nat -> bool) (tr : list (nat * event)) : nat := length (filter (fun x => lists f (snd x)) tr).
Definition boots (acts : list action) : nat := length (filter (fun a => match a with ABoot _ => true | _ => false end) acts).
(** How often mails were put back after a refusal. *)
Definition put_back (tr : list (nat * event)) : nat := length (filter (fun x => match snd x with ECancel _ true => true | _ => false end) tr).

(** No task lists the mail twice as queued, or twice as in flight. *)
Definition queued_by (n id : nat) (tr : list (nat * event)) : nat :=
  length (filter (fun x => (fst x =? n) && match snd x with EListed i => i =? id | _ => false end) tr).
Definition found_by (n id : nat) (tr : list (nat * event)) : nat :=
  length (filter (fun x => (fst x =? n) && match snd x with EFound i => i =? id | _ => false end) tr).
Definition lists_once (id : nat) (tr : list (nat * event)) : Prop :=
  forall n, queued_by n id tr <= 1 /\ found_by n id tr <= 1.
