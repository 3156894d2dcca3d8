(** The session tests of the repository, run on the model
    (smtp-server/src/interact.rs:200-345). *)
From Verif Require Import Bytes Nom Message Reply Stream Interact.
Local Open Scope N_scope.

(** interact.rs:194-261: [TestConfig].  The state is the list of mails kept. *)
Definition mails := list (option email * list email * bytes).
Definition email_of (s : string) : option email :=
  match email_parse (s2b s) with POk e => Some e | _ => None end.
Definition test_filter_from (c : mails) (u : unit) (a : option email)
  : decision * mails * unit * option email :=
  match a with
  | Some e => if beq (email_send e) (s2b "bad@quux.example.org")
              then (Reject POLICY_REASON (s2b "User 'bad' banned"), c, u, a) else (Accept, c, u, a)
  | None => (Accept, c, u, a)
  end.
Definition test_filter_to (c : mails) (u : unit) (m : mail_meta) (a : email)
  : decision * mails * unit * mail_meta * email :=
  if beq (em_localpart a) (s2b "baz")
  then (Reject MAILBOX_UNAVAILABLE (s2b "No user 'baz'"), c, u, m, a) else (Accept, c, u, m, a).
Definition test_handle (c : mails) (u : unit) (m : mail_meta) : handler mails unit :=
  HRead (fun _ => false) (fun items _ => HComplete (fun ok =>
    let text := concat items in
    if negb ok then HDone (Reject BAD_SEQUENCE (s2b "Closed the channel before end of message")) c u
    else match find_sub (s2b "World") text with
         | Some _ => HDone (Reject POLICY_REASON (s2b "Don't you dare say 'World'!")) c u
         | None => HDone Accept (c ++ [(mm_from m, mm_to m, text)]) u
         end)).
Definition test_config : config mails unit :=
  default_config test_filter_from test_filter_to test_handle (fun _ => s2b "test.example.org").

Definition test_writer : writer unit :=
  Writer unit (fun w => (true, w)) (fun w _ => (true, w)) (fun w => (true, w)).
Definition written {U} (tr : list (obs U)) : bytes :=
  concat (map (fun o => match o with OWrite b => b | _ => [] end) tr).
Definition run_test (inp : list bytes) : outcome unit * bytes * mails :=
  let '(o, s) := interact test_config test_writer (src_of (map Chunk inp)) tt [] tt in
  (o, written (st_trace s), st_cfg s).
Definition ln (s : string) : bytes := s2b s ++ CRLF.

Definition emails (l : list string) : list (option email) := map email_of l.
Definition mail_is (m : option email * list email * bytes) (f : option string) (to : list string) (t : bytes) : Prop :=
  fst (fst m) = match f with Some f => email_of f | None => None end
  /\ map Some (snd (fst m)) = emails to /\ snd m = t.

Example session_1 : exists m,
  run_test [ln "MAIL FROM:<>" ++ ln "RCPT TO:<baz@quux.example.org>" ++ ln "RCPT TO:<foo2@bar.example.org>"
            ++ ln "RCPT TO:<foo3@bar.example.org>" ++ ln "DATA" ++ ln "Hello world" ++ ln "." ++ ln "QUIT"]
  = (Ret tt, ln "220 test.example.org Service ready" ++ ln "250 Okay" ++ ln "550 No user 'baz'" ++ ln "250 Okay"
     ++ ln "250 Okay" ++ ln "354 Start mail input; end with <CRLF>.<CRLF>" ++ ln "250 Okay"
     ++ ln "502 Command not implemented", [m])
  /\ mail_is m None ["foo2@bar.example.org"; "foo3@bar.example.org"]%string (ln "Hello world").
Proof. eexists. vm_compute. repeat split; reflexivity. Qed.
Example session_2 :
  run_test [ln "MAIL FROM:<test@example.org>"; ln "RCPT TO:<foo@example.org>"; ln "DATA"; ln "Hello World"; ln ".";
            ln "QUIT"]
  = (Ret tt, ln "220 test.example.org Service ready" ++ ln "250 Okay" ++ ln "250 Okay"
     ++ ln "354 Start mail input; end with <CRLF>.<CRLF>" ++ ln "550 Don't you dare say 'World'!"
     ++ ln "502 Command not implemented", []).
Proof. vm_compute. reflexivity. Qed.
Example session_3 :
  run_test [ln "HELP hello"]
  = (Ret tt, ln "220 test.example.org Service ready" ++ ln "502 Command not implemented", []).
Proof. vm_compute. reflexivity. Qed.
Example session_4 : exists m,
  run_test [ln "MAIL FROM:<bad@quux.example.org>" ++ ln "MAIL FROM:<foo@bar.example.org>"
            ++ ln "MAIL FROM:<baz@quux.example.org>";
            ln "RCPT TO:<foo2@bar.example.org>" ++ ln "DATA" ++ ln "Hello"; ln "." ++ ln "QUIT"]
  = (Ret tt, ln "220 test.example.org Service ready" ++ ln "550 User 'bad' banned" ++ ln "250 Okay"
     ++ ln "503 Bad sequence of commands" ++ ln "250 Okay" ++ ln "354 Start mail input; end with <CRLF>.<CRLF>"
     ++ ln "250 Okay" ++ ln "502 Command not implemented", [m])
  /\ mail_is m (Some "foo@bar.example.org"%string) ["foo2@bar.example.org"%string] (ln "Hello").
Proof. eexists. vm_compute. repeat split; reflexivity. Qed.
Example session_5 :
  run_test [ln "MAIL FROM:<foo@test.example.com>" ++ ln "DATA" ++ ln "QUIT"]
  = (Ret tt, ln "220 test.example.org Service ready" ++ ln "250 Okay" ++ ln "503 Bad sequence of commands"
     ++ ln "502 Command not implemented", []).
Proof. vm_compute. reflexivity. Qed.
Example session_6 :
  run_test [ln "MAIL FROM:<foo@test.example.com>" ++ s2b "RCPT TO:<foo@bar.example.org>" ++ [CR]]
  = (Ret tt, ln "220 test.example.org Service ready" ++ ln "250 Okay", []).
Proof. vm_compute. reflexivity. Qed.
(** [interrupted_data] (interact.rs:400-413) *)
Example session_interrupted :
  run_test [ln "MAIL FROM:foo" ++ ln "RCPT TO:bar" ++ ln "DATA" ++ s2b "hello"]
  = (Ret tt, ln "220 test.example.org Service ready" ++ ln "250 Okay" ++ ln "250 Okay"
     ++ ln "354 Start mail input; end with <CRLF>.<CRLF>"
     ++ ln "503 Closed the channel before end of message", []).
Proof. vm_compute. reflexivity. Qed.
