(** Specification of writing to a byte sink that may misbehave. *)
From Verif Require Import Bytes Write.

(** A writer that does not claim to have taken more than it was given: what
    [io::Write::write] promises. *)
Definition honest {W} (step : W -> bytes -> wanswer * W) : Prop :=
  forall w b n w', step w b = (WOk n, w') -> n <= length b.
(** A writer that always takes something. *)
Definition willing {W} (step : W -> bytes -> wanswer * W) : Prop :=
  forall w b, b <> [] -> exists n w', step w b = (WOk n, w') /\ 0 < n <= length b.

(** [p] writes [text]: what the writer has taken is a beginning of [text]; it is
    all of it exactly if [p] reports success; [p] never panics on an honest
    writer, and succeeds on a willing one. *)
Definition writes {W} (step : W -> bytes -> wanswer * W) (p : @writing W) (text : bytes) : Prop :=
  (forall fuel w e got w', p fuel w = (e, got, w') ->
     (exists rest, text = got ++ rest /\ (e = WDone <-> rest = []) ) \/ e = WPanic)
  /\ (honest step -> forall fuel w e got w', p fuel w = (e, got, w') -> e <> WPanic)
  /\ (willing step -> forall fuel w, length text <= fuel -> exists w', p fuel w = (WDone, text, w')).
