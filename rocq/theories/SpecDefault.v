(** Specification of a server that implements only the required methods of
    [Config]: what it says, as bytes. *)
From Verif Require Import Bytes Message Stream SpecReply Interact SpecSession.

Definition a_line (s : String.string) : bytes := s2b s ++ CRLF.
Definition okay_line := a_line "250 Okay".
Definition go_ahead_line := a_line "354 Start mail input; end with <CRLF>.<CRLF>".
Definition bad_sequence_line := a_line "503 Bad sequence of commands".
Definition unimplemented_line := a_line "502 Command not implemented".
Definition unrecognized_line := a_line "500 Command not recognized".
Definition greeting (hostname : bytes) : bytes := s2b "220 " ++ hostname ++ a_line " Service ready".

(** A refusal the user's code asked for. *)
Definition asked {U} (o : obs U) (code : N) (msg : bytes) : Prop :=
  match o with
  | OFrom _ _ d _ _ | OTo _ _ _ d _ _ _ | OFilterData _ _ d _ _ | OHandle _ _ _ _ (Some (d, _)) => d = Reject code msg
  | _ => False
  end.
(** Every line after the greeting is one of the five, or one of the lines of the
    last refusal the user's code asked for. *)
Definition vocabulary (b : bytes) : Prop :=
  In b [okay_line; go_ahead_line; bad_sequence_line; unimplemented_line; unrecognized_line].
Definition explained {U} (tr : list (obs U)) : Prop :=
  forall pre b post, tr = pre ++ OWrite b :: post ->
  vocabulary b
  \/ exists front o ws ws' code msg, pre = front ++ o :: map OWrite ws
     /\ asked o code msg /\ full_reply code msg (ws ++ b :: ws').

(** What the user must see to: refusals that can be sent, a hostname of printable
    bytes that fits in the greeting, and a handler that keeps to the rules. *)
Definition decent (r : N * bytes) : Prop := sendable_reply r /\ printable_reply r.
Record decent_server {C U}
  (ff : C -> U -> option email -> decision * C * U * option email)
  (ft : C -> U -> mail_meta -> email -> decision * C * U * mail_meta * email)
  (hm : C -> U -> mail_meta -> handler C U) (hostname : C -> bytes) : Prop := Decent {
  dc_from : forall c u f, on_refusal decent (fst (fst (fst (ff c u f))));
  dc_to : forall c u m t, on_refusal decent (fst (fst (fst (fst (ft c u m t)))));
  dc_mail : forall c u m, handler_replies decent (hm c u m);
  dc_drains : forall c u m, drains (hm c u m);
  dc_name : forall c, Forall printable (hostname c) /\ (length (hostname c) <= 492)%nat
}.
