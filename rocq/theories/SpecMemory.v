(** Specification for the memory a connection may take. *)
From Verif Require Import Bytes Stream.

(** No packet of the incoming stream is longer than [B], nor is what was put back. *)
Definition fits (B : nat) (p : prependable) : Prop :=
  (forall b, In (Chunk b) (src_events (pr_stream p)) -> length b <= B)
  /\ (forall b, pr_prepended p = Some b -> length b <= B).
