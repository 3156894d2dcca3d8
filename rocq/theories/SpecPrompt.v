(** Specification for the timing of answers: what is read and written when the
    server starts to wait. *)
From Verif Require Import Bytes Stream SpecData Interact.

(** The same stream, with further events arriving after those of [p]. *)
Definition later_src (s : src) (more : list event) : src :=
  Src (src_events s ++ more) (src_ended s) (src_over s).
Definition later (p : prependable) (more : list event) : prependable :=
  Prep (later_src (pr_stream p) more) (pr_prepended p).
Definition later_ds (d : datastream) (more : list event) : datastream :=
  DS (later (ds_source d) more) (ds_st d) (ds_buf d).
Definition later_st {C U W} (s : @st C U W) (more : list event) : @st C U W :=
  set_reader s (later (st_reader s) more).

(** The end of the stream has not been seen. *)
Definition still_open (p : prependable) : Prop := src_ended (pr_stream p) = false.

(** [interact] (interact.rs:19-68) stopped just before it asks for its line
    number [n], from the greeting on: [Ret tt] if it gets there. *)
Fixpoint after_lines {C U W} (cfg : config C U) (wr : writer W) (n : nat) (s : @st C U W) : outcome unit * st :=
  match n with
  | O => (Ret tt, s)
  | S n' =>
      match next_crlf_line (st_reader s) with
      | (Line l, p) => andthen (handle_line cfg wr l (set_reader s p)) (fun _ s => after_lines cfg wr n' s)
      | (NoLine, p) => (Panic, set_reader s p)      (* there is no such line *)
      | (LinePanic, p) => (Panic, set_reader s p)
      | (LineFuel, p) => (NoFuel, set_reader s p)
      end
  end.
Definition waits_after {C U W} (cfg : config C U) (wr : writer W) (n : nat) (incoming : src) (w : W) (c : C) (u : U)
  (s : @st C U W) : Prop :=
  andthen (send_reply wr (cf_welcome_banner cfg c) (St c u None (prep_new incoming) w None []))
    (fun _ s => after_lines cfg wr n s) = (Ret tt, s).

(** A writer that also remembers whether something was sent since the last
    successful flush. *)
Definition track {W} (wr : writer W) : writer (W * bool) := {|
  w_ready := fun x => let '(ok, w) := w_ready wr (fst x) in (ok, (w, snd x));
  w_send := fun x b => let '(ok, w) := w_send wr (fst x) b in (ok, (w, true));
  w_flush := fun x => let '(ok, w) := w_flush wr (fst x) in (ok, (w, if ok then false else snd x))
|}.
(** Nothing is held back, neither in the adapter nor unflushed in the writer. *)
Definition all_flushed {C U W} (s : @st C U (W * bool)) : Prop := st_with s = None /\ snd (st_w s) = false.
