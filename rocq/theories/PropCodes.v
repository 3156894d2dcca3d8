(** Property C69: reply codes. *)
From Verif Require Import Bytes Nom Message Reply SpecReply SpecRfc PropReply PropRfc.
Local Open Scope N_scope.

(** The codes of RFC 5321, 4.2.3, in that order; 550 is there for two reasons
    ("mailbox unavailable" and "command rejected for policy reasons"). *)
Definition rfc5321_codes : list N :=
  [211; 214; 220; 221; 250; 251; 252; 354; 421; 450; 451; 452; 455;
   500; 501; 502; 503; 504; 550; 550; 551; 552; 553; 554; 555].
(** ** C69 *)
(** The named codes are those of the RFC. *)
Theorem C69_named_codes :
  [SYSTEM_STATUS; HELP_MESSAGE; SERVICE_READY; CLOSING_CHANNEL; OKAY; USER_NOT_LOCAL_WILL_FORWARD; CANNOT_VRFY_BUT_PLEASE_TRY; START_MAIL_INPUT; SERVICE_NOT_AVAILABLE; MAILBOX_TEMPORARILY_UNAVAILABLE; LOCAL_ERROR; INSUFFICIENT_STORAGE; UNABLE_TO_ACCEPT_PARAMETERS;
   COMMAND_UNRECOGNIZED; SYNTAX_ERROR; COMMAND_UNIMPLEMENTED; BAD_SEQUENCE; PARAMETER_UNIMPLEMENTED; MAILBOX_UNAVAILABLE; POLICY_REASON; USER_NOT_LOCAL; EXCEEDED_STORAGE; MAILBOX_NAME_INCORRECT; TRANSACTION_FAILED; MAIL_OR_RCPT_PARAMETER_UNIMPLEMENTED]
  = rfc5321_codes.
Proof. reflexivity. Qed.
Print Assumptions C69_named_codes.
(** [custom] makes of each number below 1000 the code the client reads - a line
    built with it begins with the three digits of this number and no other - and
    panics for all other numbers. *)
Theorem C69_custom : forall n,
  (n < 1000 -> exists code, reply_code_custom n = Some code
     /\ forall last text r, reply_build code last text = inl r ->
        three_digits n (firstn 3 (reply_send r))
        /\ forall n', three_digits n' (firstn 3 (reply_send r)) -> n' = n)
  /\ (1000 <= n -> reply_code_custom n = None).
Proof.
  intros n. unfold reply_code_custom. split.
  - intros L. exists n. split; [now apply N.ltb_lt in L as ->|]. intros last text r B.
    apply C25_build_exact in B. subst r. cbn [reply_send rl_code rl_last rl_line app firstn].
    assert (D : three_digits n [n mod 1000 / 100 + 48; n mod 100 / 10 + 48; n mod 10 + 48]).
    { exists (n mod 1000 / 100), (n mod 100 / 10), (n mod 10).
      rewrite (N.mod_small n 1000) by exact L.
      assert (E : n = 100 * (n / 100) + n mod 100) by (apply N.div_mod'; discriminate).
      assert (F : n mod 100 = 10 * (n mod 100 / 10) + (n mod 100) mod 10) by (apply N.div_mod'; discriminate).
      assert (G : (n mod 100) mod 10 = n mod 10).
      { change 100 with (10 * 10). rewrite N.mod_mul_r by discriminate. rewrite N.mul_comm, N.mod_add by discriminate. now apply N.mod_mod. }
      repeat split.
      - apply N.div_lt_upper_bound; [discriminate|exact L].
      - apply N.div_lt_upper_bound; [discriminate|]. now apply N.mod_lt.
      - now apply N.mod_lt.
      - rewrite <- G. lia.
      - now rewrite !(N.add_comm 48). }
    split; [exact D|]. intros n' D'. destruct D as (a & b & c & A & Bb & Cc & En & Ed). destruct D' as (a' & b' & c' & A' & B' & C' & En' & Ed').
    rewrite Ed in Ed'. assert (E1 := f_equal (fun l => nth 0 l 0) Ed'). assert (E2 := f_equal (fun l => nth 1 l 0) Ed'). assert (E3 := f_equal (fun l => nth 2 l 0) Ed').
    cbn [nth] in E1, E2, E3. lia.
  - intros L. apply N.ltb_ge in L. now rewrite L.
Qed.
Print Assumptions C69_custom.
(** Lines with a named code are lines of the RFC; codes made by [custom] need not be. *)
Theorem C69_named_codes_give_rfc_lines : forall code last text r,
  In code rfc5321_codes -> reply_build code last text = inl r -> rfc_reply_line (reply_send r) r.
Proof.
  intros code last text r H B.
  assert (D : exists a b c, 2 <= a <= 5 /\ b <= 5 /\ c <= 9 /\ code = 100 * a + 10 * b + c).
  { exists (code / 100), (code mod 100 / 10), (code mod 10).
    repeat (destruct H as [<- |H]; [repeat split; vm_compute; try discriminate; reflexivity|]). destruct H. }
  destruct D as (a & b & c & A & Bb & Cc & ->). now apply (C58_replies_sent_as_rfc_lines a b c last text).
Qed.
Print Assumptions C69_named_codes_give_rfc_lines.
Theorem C69_custom_beyond_the_rfc : exists code r,
  reply_code_custom 99 = Some code /\ reply_build code true [] = inl r /\ ~ exists r', rfc_reply_line (reply_send r) r'.
Proof.
  exists 99, (ReplyLine 99 true []). split; [reflexivity|]. split; [reflexivity|].
  intros (r' & H). remember (reply_send _) as w eqn:E. destruct H as [a b c last t A].
  assert (E1 := f_equal (fun l => nth 0 l 0) E). cbn [nth app] in E1. assert (E2 : 48 + a = 48) by exact E1. lia.
Qed.
Print Assumptions C69_custom_beyond_the_rfc.
Example C69_example : exists r, reply_build POLICY_REASON true (s2b "no") = inl r
  /\ reply_send r = s2b "550 no" ++ [13; 10] /\ rfc_reply_line (reply_send r) r.
Proof.
  eexists. split; [reflexivity|]. split; [reflexivity|].
  apply (C69_named_codes_give_rfc_lines POLICY_REASON true (s2b "no")); [vm_compute; tauto|reflexivity].
Qed.
