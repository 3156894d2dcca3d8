(** Specification for how long a session with any user code waits. *)
From Verif Require Import Bytes SmtpString Ip Message Reply Stream Interact SinkFuture Async AsyncUser SpecAsync SpecUser.

(** ** User code that counts how often it answers [Pending] *)
(** [waits c]: how often it did when the configuration is in state [c]. *)
Definition counts {S R} (waits : S -> nat) (f : ufuture S R) : Prop :=
  forall l s r l' s', uf_poll f l s = (r, l', s') -> waits s' = match r with Pending => 1 + waits s | Ready _ => waits s end.
Fixpoint poll_counts {L C U} (waits : C -> nat) (before : nat) (h : hpoll L C U) : Prop :=
  match h with
  | PNext k => forall r, poll_counts waits before (k r)
  | PComplete k => forall ok, poll_counts waits before (k ok)
  | PWait _ c _ => waits c = 1 + before
  | PReturn _ c _ => waits c = before
  | PPanic => True
  end.
Record counts_waits {C U} (waits : C -> nat) (ac : aconfig C U) : Prop := {
  cw_new_mail : counts waits (ac_new_mail ac);
  cw_filter_from : counts (fun s => waits (fst (fst s))) (ac_filter_from ac);
  cw_filter_to : counts (fun s => waits (fst (fst s))) (ac_filter_to ac);
  cw_filter_data : counts (fun s => waits (fst (fst s))) (ac_filter_data ac);
  cw_handle_mail : forall m l c u n, poll_counts waits (waits c) (hf_poll (ac_handle_mail ac m) l c u n)
}.
(** Any user code, with a counter added to its configuration. *)
Definition count_new_mail {C} (f : ufuture C unit) : ufuture (C * nat) unit := {|
  uf_state := uf_state f; uf_start := uf_start f;
  uf_poll := fun l s => let '(r, l', c) := uf_poll f l (fst s) in (r, l', (c, match r with Pending => 1 + snd s | Ready _ => snd s end)) |}.
Definition count_filter {C U X R} (f : ufuture (C * U * X) R) : ufuture (C * nat * U * X) R := {|
  uf_state := uf_state f; uf_start := uf_start f;
  uf_poll := fun l s => let '(c, n, u, v) := s in
    let '(r, l', (c, u, v)) := uf_poll f l (c, u, v) in (r, l', (c, match r with Pending => 1 + n | Ready _ => n end, u, v)) |}.
Fixpoint count_poll {L C U} (n : nat) (h : hpoll L C U) : hpoll L (C * nat) U :=
  match h with
  | PNext k => PNext (fun r => count_poll n (k r))
  | PComplete k => PComplete (fun ok => count_poll n (k ok))
  | PWait l c u => PWait l (c, 1 + n) u
  | PReturn d c u => PReturn d (c, n) u
  | PPanic => PPanic
  end.
Definition count_handler {C U} (f : hfuture C U) : hfuture (C * nat) U := {|
  hf_state := hf_state f; hf_start := hf_start f;
  hf_poll := fun l c u size => count_poll (snd c) (hf_poll f l (fst c) u size) |}.
(** The replies do not depend on the counter; of a [config] for replies nothing
    else is used. *)
Definition lift_replies {C U} (cfg : config C U) : config (C * nat) U := {|
  cf_new_mail := fun c => c;
  cf_filter_from := fun c u from => (Accept, c, u, from);
  cf_filter_to := fun c u m to => (Accept, c, u, m, to);
  cf_filter_data := fun c u m => (Accept, c, u, m);
  cf_handle_mail := fun c u m => HDone Accept c u;
  cf_welcome_banner := fun c => cf_welcome_banner cfg (fst c);
  cf_mail_okay := fun c => cf_mail_okay cfg (fst c);
  cf_rcpt_okay := fun c => cf_rcpt_okay cfg (fst c);
  cf_data_okay := fun c => cf_data_okay cfg (fst c);
  cf_mail_accepted := fun c => cf_mail_accepted cfg (fst c);
  cf_already_in_mail := fun c => cf_already_in_mail cfg (fst c);
  cf_rcpt_before_mail := fun c => cf_rcpt_before_mail cfg (fst c);
  cf_data_before_rcpt := fun c => cf_data_before_rcpt cfg (fst c);
  cf_data_before_mail := fun c => cf_data_before_mail cfg (fst c);
  cf_command_unimplemented := fun c => cf_command_unimplemented cfg (fst c);
  cf_command_unrecognized := fun c => cf_command_unrecognized cfg (fst c)
|}.
Definition counting {C U} (ac : aconfig C U) : aconfig (C * nat) U := {|
  ac_new_mail := count_new_mail (ac_new_mail ac);
  ac_filter_from := count_filter (ac_filter_from ac);
  ac_filter_to := count_filter (ac_filter_to ac);
  ac_filter_data := count_filter (ac_filter_data ac);
  ac_handle_mail := fun m => count_handler (ac_handle_mail ac m);
  ac_replies := lift_replies (ac_replies ac)
|}.

(** ** When everybody answers in the end *)
(** A poll function of a sink that is asked until it answers. *)
Inductive answers {K} (f : K -> poll bool * K) : K -> Prop :=
| answers_now k ok k' : f k = (Ready ok, k') -> answers f k
| answers_later k k' : f k = (Pending, k') -> answers f k' -> answers f k.
Definition sink_answers {K} (ks : @ksink K) : Prop := forall k, answers (k_ready ks) k /\ answers (k_flush ks) k.
(** Every future of the configuration ends, if it is polled often enough. *)
Definition future_ends {S R} (f : ufuture S R) : Prop := forall s, exists r s', ends_with f (uf_start f) s r s'.
Record user_ends {C U} (ac : aconfig C U) : Prop := {
  ue_new_mail : future_ends (ac_new_mail ac);
  ue_filter_from : future_ends (ac_filter_from ac);
  ue_filter_to : future_ends (ac_filter_to ac);
  ue_filter_data : future_ends (ac_filter_data ac);
  ue_handle_mail : forall m p c u, exists text cs r, handles (ac_handle_mail ac m) (hf_start _) (ds_new p) c u text cs r
}.
