(** The configuration of smtp-server/fuzz/fuzz_targets/fuzz_interact.rs, which is
    written against an older interface of the crate, brought to the present one:
    the handler reads its stream to the end and completes it
    ([concat_and_recover] followed by [into_inner] then, [concat] followed by [complete] now). *)
From Verif Require Import Bytes Nom SmtpString Message Reply Stream Interact.

(** [Refusal]s of the target, fuzz_interact.rs:48-51, 76-79, 113-116. *)
(** fuzz_interact.rs:39-41, 66-68: [locb.len() >= 2 && locb[0] > locb[1]]. *)
Definition fuzz_likes (loc : bytes) : bool :=
  match loc with a :: b :: _ => (b <? a)%N | _ => false end.
Definition fuzz_forbidden : decision := Reject POLICY_REASON (s2b "forbidden user").
(** fuzz_interact.rs:32-57.  The connection metadata ([()] in the target) records
    here whether a call of [localpart()] panicked. *)
Definition fuzz_filter_from (c : unit) (crashed : bool) (addr : option email)
  : decision * unit * bool * option email :=
  match addr with
  | None => (Accept, c, crashed, addr)
  | Some a =>
      match email_localpart a with
      | None => (Accept, c, true, addr)
      | Some loc => (if fuzz_likes loc then Accept else fuzz_forbidden, c, crashed, addr)
      end
  end.
(** fuzz_interact.rs:59-82 *)
Definition fuzz_filter_to (c : unit) (crashed : bool) (m : mail_meta) (a : email)
  : decision * unit * bool * mail_meta * email :=
  match email_localpart a with
  | None => (Accept, c, true, m, a)
  | Some loc => (if fuzz_likes loc then Accept else fuzz_forbidden, c, crashed, m, a)
  end.
(** fuzz_interact.rs:84-123 *)
Definition fuzz_handle_mail (c : unit) (crashed : bool) (m : mail_meta) : handler unit bool :=
  HRead (fun _ => false) (fun _ _ => HComplete (fun _ =>
    HDone (if Nat.ltb 3 (length (mm_to m)) then Reject POLICY_REASON (s2b "Too many recipients!")
           else Accept) c crashed)).
(** fuzz_interact.rs:25-30 *)
Definition fuzz_config : config unit bool :=
  default_config fuzz_filter_from fuzz_filter_to fuzz_handle_mail (fun _ => s2b "test.example.org").
(** [DiscardSink], fuzz_interact.rs:10-23 *)
Definition discard : writer unit :=
  Writer unit (fun w => (true, w)) (fun w _ => (true, w)) (fun w => (true, w)).
(** fuzz_interact.rs:126-137: [false] is a crash. *)
Definition fuzz_interact (data : list bytes) : bool :=
  match interact fuzz_config discard (src_of (map Chunk data)) tt tt false with
  | (Ret _, s) => negb (st_user s)
  | (WriteErr, s) => negb (st_user s)
  | _ => false
  end.
