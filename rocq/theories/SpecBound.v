(** Specification of how much a client can make a server do. *)
From Verif Require Import Bytes Message Stream SpecReply Interact SpecSession.

(** How many CRLFs the client has sent. *)
Fixpoint crlfs (b : bytes) : nat :=
  match b with
  | x :: ((y :: _) as b') => (if (x =? CR)%N && (y =? LF)%N then 1 else 0) + crlfs b'
  | _ => 0
  end.

Definition is_call {U} (o : obs U) : bool :=
  match o with OFrom _ _ _ _ _ | OTo _ _ _ _ _ _ _ | OFilterData _ _ _ _ _ | OHandle _ _ _ _ _ => true | _ => false end.
Definition is_filter {U} (o : obs U) : bool :=
  match o with OFrom _ _ _ _ _ | OTo _ _ _ _ _ _ _ | OFilterData _ _ _ _ _ => true | _ => false end.
Definition is_handle {U} (o : obs U) : bool := match o with OHandle _ _ _ _ _ => true | _ => false end.
Definition is_new_mail {U} (o : obs U) : bool := match o with ONewMail => true | _ => false end.
Definition how_many {U} (f : obs U -> bool) (tr : list (obs U)) : nat := length (filter f tr).

(** The lines [ws] are those of the replies [rs], in order. *)
Definition lines_of_replies (rs : list (N * bytes)) (ws : list bytes) : Prop :=
  exists wss, Forall2 (fun r w => full_reply (fst r) (snd r) w) rs wss /\ ws = concat wss.
(** The reply [r] takes at most [k] bytes on the wire. *)
Definition fits (k : nat) (r : N * bytes) : Prop :=
  forall ws, full_reply (fst r) (snd r) ws -> length (concat ws) <= k.
