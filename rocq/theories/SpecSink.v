(** The contract of the outgoing [Sink] (futures 0.3 documentation of
    [Sink]): [start_send] only after a [poll_ready] that answered [Ok] and was not
    used up since; no call after an error.  Stated by a writer that supervises
    another: it answers the same and keeps a verdict on the calls. *)
From Verif Require Import Bytes Interact.

Inductive verdict :=
| Idle                       (* nothing wrong so far *)
| Granted                    (* the last call was a [poll_ready] that answered [Ok] *)
| Failed                     (* the last call answered an error *)
| Misused.                   (* some call broke the contract *)
Definition answer (ok : bool) (v : verdict) : verdict := if ok then v else Failed.

Definition supervise {W} (wr : writer W) : writer (W * verdict) := {|
  w_ready := fun x =>
    let '(ok, w) := w_ready wr (fst x) in
    (ok, (w, match snd x with Idle | Granted => answer ok Granted | _ => Misused end));
  w_send := fun x b =>
    let '(ok, w) := w_send wr (fst x) b in
    (ok, (w, match snd x with Granted => answer ok Idle | _ => Misused end));
  w_flush := fun x =>
    let '(ok, w) := w_flush wr (fst x) in
    (ok, (w, match snd x with Idle | Granted => answer ok Idle | _ => Misused end))
|}.
