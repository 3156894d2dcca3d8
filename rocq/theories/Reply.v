(** Model of smtp-message/src/reply.rs. *)
From Verif Require Import Bytes Nom.

(** [ReplyCode] (reply.rs:12-16) is its number; the named constants
    (reply.rs:21-45): *)
Definition SYSTEM_STATUS : N := 211%N.
Definition HELP_MESSAGE : N := 214%N.
Definition SERVICE_READY : N := 220%N.
Definition CLOSING_CHANNEL : N := 221%N.
Definition OKAY : N := 250%N.
Definition USER_NOT_LOCAL_WILL_FORWARD : N := 251%N.
Definition CANNOT_VRFY_BUT_PLEASE_TRY : N := 252%N.
Definition START_MAIL_INPUT : N := 354%N.
Definition SERVICE_NOT_AVAILABLE : N := 421%N.
Definition MAILBOX_TEMPORARILY_UNAVAILABLE : N := 450%N.
Definition LOCAL_ERROR : N := 451%N.
Definition INSUFFICIENT_STORAGE : N := 452%N.
Definition UNABLE_TO_ACCEPT_PARAMETERS : N := 455%N.
Definition COMMAND_UNRECOGNIZED : N := 500%N.
Definition SYNTAX_ERROR : N := 501%N.
Definition COMMAND_UNIMPLEMENTED : N := 502%N.
Definition BAD_SEQUENCE : N := 503%N.
Definition PARAMETER_UNIMPLEMENTED : N := 504%N.
Definition MAILBOX_UNAVAILABLE : N := 550%N.
Definition POLICY_REASON : N := 550%N.
Definition USER_NOT_LOCAL : N := 551%N.
Definition EXCEEDED_STORAGE : N := 552%N.
Definition MAILBOX_NAME_INCORRECT : N := 553%N.
Definition TRANSACTION_FAILED : N := 554%N.
Definition MAIL_OR_RCPT_PARAMETER_UNIMPLEMENTED : N := 555%N.

(** [ReplyCode::custom] (reply.rs:47-50); [None] is the failed [assert!]. *)
Definition reply_code_custom (code : N) : option N :=
  if (code <? 1000)%N then Some code else None.

(** [ReplyLine] (reply.rs:67-71); [rl_last] is [IsLastLine::Yes]. *)
Record reply_line := ReplyLine { rl_code : N; rl_last : bool; rl_line : bytes }.

(** reply.rs:75 *)
Definition MAX_LEN : nat := 506.

(** [BuildError] (builderror.rs:4-8), the two variants [build] uses *)
Inductive build_error :=
| LineTooLong (length limit : nat)
| DisallowedByte (b : N) (pos : nat).

Definition reply_byte_ok (x : N) : bool :=
  (x =? 9)%N || ((32 <=? x)%N && (x <=? 126)%N).

(** [ReplyLine::build] (reply.rs:77-103); [line.byte(p)] cannot panic since
    [position] returned [p], so a default is used for [nth]. *)
Definition reply_build (code : N) (is_last : bool) (line : bytes) : reply_line + build_error :=
  if Nat.ltb MAX_LEN (length line) then inr (LineTooLong (length line) MAX_LEN)
  else match position (fun x => negb (reply_byte_ok x)) line with
       | Some p => inr (DisallowedByte (nth p line 0%N) p)
       | None => inl (ReplyLine code is_last line)
       end.

(** [ReplyLine::byte_len] (reply.rs:110-112) *)
Definition reply_byte_len (r : reply_line) : nat := 6 + length (rl_line r).

(** [ReplyLine::send_to] (reply.rs:114-127); each digit fits a [u8]. *)
Definition reply_send (r : reply_line) : bytes :=
  let code := rl_code r in
  [ ((code mod 1000) / 100 + 48)%N; ((code mod 100) / 10 + 48)%N; (code mod 10 + 48)%N ]
  ++ (if rl_last r then s2b " " else s2b "-")
  ++ rl_line r ++ CRLF.

(** [u16::from_str] (Rust std): an optional plus sign, then at least one decimal
    digit; overflow is an error. *)
Fixpoint u16_digits (s : bytes) (acc : N) : option N :=
  match s with
  | [] => Some acc
  | c :: s' =>
      if (48 <=? c)%N && (c <=? 57)%N then
        let acc' := (acc * 10 + (c - 48))%N in
        if (65535 <? acc')%N then None else u16_digits s' acc'
      else None
  end.
Definition u16_from_str (s : bytes) : option N :=
  let digits := match s with 43%N :: s' => s' | _ => s end in
  match digits with [] => None | _ :: _ => u16_digits digits 0 end.

(** [reply] (reply.rs:130-150).  [ReplyCode::custom], which cannot fail after
    [verify!], and [into_utf8] are left out here; see SliceParser.v, PropSlice.v. *)
Definition reply_code_p : parser N :=
  verify (map_res (take 3) u16_from_str) (fun x => (x <? 1000)%N).
Definition reply_last_p : parser bool :=
  pmap (alt (tag (s2b "-")) (tag (s2b " ")))
       (fun b => Nat.eqb (length b) 1 && (nth 0 b 0 =? SP)%N).
Definition reply_p : parser reply_line := fun i =>
  bind (reply_code_p i) (fun i code =>
  bind (reply_last_p i) (fun i is_last =>
  bind (take_until_and_consume CRLF i) (fun i line =>
  Done i (ReplyLine code is_last line)))).

(** [ReplyLine::parse] (reply.rs:106-108) *)
Definition reply_parse (b : bytes) : presult reply_line := nom_to_result (reply_p b).
