(** C57: [send_to] on any writer. *)
From Verif Require Import Bytes Nom SmtpString Ip Message Reply Write SpecWrite SpecReply ReplyProofs PropGrammar.

Section Write.
Context {W : Type}.
Variable step : W -> bytes -> wanswer * W.
Variable cut : bytes -> list bytes.
Hypothesis cut_ok : forall b, concat (cut b) = b.

Lemma writes_nil : writes step w_ok [].
Proof.
  repeat split.
  - intros fuel w e got w' E. injection E as <- <- _. left. exists []. repeat split.
  - intros _ fuel w e got w' E. injection E as <- _ _. discriminate.
  - intros _ fuel w _. exists w. reflexivity.
Qed.
Lemma writes_then p q a b : writes step p a -> writes step q b -> writes step (w_then p q) (a ++ b).
Proof.
  intros (P1 & P2 & P3) (Q1 & Q2 & Q3). repeat split.
  - intros fuel w e got w' E. unfold w_then in E.
    destruct (p fuel w) as [[e1 g1] w1] eqn:Ep. destruct (P1 _ _ _ _ _ Ep) as [(rest & -> & H)| ->].
    + destruct e1; try (injection E as <- <- _; left; exists (rest ++ b); split; [now rewrite app_assoc|];
        split; [discriminate|]; intros X; apply app_eq_nil in X; destruct X as [X _]; apply H in X; discriminate).
      destruct (q fuel w1) as [[e2 g2] w2] eqn:Eq. injection E as <- <- _.
      assert (rest = []) as -> by now apply H. rewrite app_nil_r.
      destruct (Q1 _ _ _ _ _ Eq) as [(rest & -> & H')| ->]; [|now right].
      left. exists rest. split; [now rewrite app_assoc|exact H'].
    + injection E as <- _ _. now right.
  - intros Hh fuel w e got w' E. unfold w_then in E.
    destruct (p fuel w) as [[e1 g1] w1] eqn:Ep. pose proof (P2 Hh _ _ _ _ _ Ep) as N.
    destruct e1; try (injection E as <- _ _; congruence).
    destruct (q fuel w1) as [[e2 g2] w2] eqn:Eq. injection E as <- _ _. exact (Q2 Hh _ _ _ _ _ Eq).
  - intros Hw fuel w Hf. rewrite app_length in Hf. unfold w_then.
    destruct (P3 Hw fuel w) as (w1 & ->); [lia|]. destruct (Q3 Hw fuel w1) as (w2 & ->); [lia|].
    exists w2. reflexivity.
Qed.
Lemma writes_all b : writes step (write_all step b) b.
Proof.
  unfold write_all. repeat split.
  - intros fuel. revert b. induction fuel as [|fuel IH]; intros b w e got w' E; destruct b as [|c b];
      try (injection E as <- <- _; left; exists []; now repeat split).
    { injection E as <- <- _. left. exists (c :: b). split; [reflexivity|]. split; discriminate. }
    cbn [write_all_fuel] in E. destruct (step w (c :: b)) as [[[|n]| |] w1].
    + injection E as <- <- _. left. exists (c :: b). split; [reflexivity|]. split; discriminate.
    + destruct (Nat.ltb (length (c :: b)) (S n)); [injection E as <- _ _; now right|].
      destruct (write_all_fuel step fuel (skipn (S n) (c :: b)) w1) as [[e2 g2] w2] eqn:E2.
      injection E as <- <- _. destruct (IH _ _ _ _ _ E2) as [(rest & Er & H)| ->]; [|now right].
      left. exists rest. split; [|exact H].
      change (c :: b = (firstn (S n) (c :: b) ++ g2) ++ rest). rewrite <- app_assoc, <- Er. symmetry. apply firstn_skipn.
    + exact (IH _ _ _ _ _ E).
    + injection E as <- <- _. left. exists (c :: b). split; [reflexivity|]. split; discriminate.
  - intros Hh fuel. revert b. induction fuel as [|fuel IH]; intros b w e got w' E; destruct b as [|c b];
      try (injection E as <- _ _; discriminate).
    cbn [write_all_fuel] in E. destruct (step w (c :: b)) as [[[|n]| |] w1] eqn:Es;
      try (injection E as <- _ _; discriminate).
    + apply Hh in Es. destruct (Nat.ltb_spec (length (c :: b)) (S n)); [lia|].
      destruct (write_all_fuel step fuel (skipn (S n) (c :: b)) w1) as [[e2 g2] w2] eqn:E2.
      injection E as <- _ _. exact (IH _ _ _ _ _ E2).
    + exact (IH _ _ _ _ _ E).
  - intros Hw fuel. revert b. induction fuel as [|fuel IH]; intros b w Hf; destruct b as [|c b];
      try (exists w; reflexivity); try (cbn in Hf; lia).
    cbn [write_all_fuel]. destruct (Hw w (c :: b)) as (n & w1 & -> & Hn); [discriminate|].
    destruct n as [|n]; [lia|]. destruct (Nat.ltb_spec (length (c :: b)) (S n)); [lia|].
    destruct (IH (skipn (S n) (c :: b)) w1) as (w2 & ->).
    { rewrite skipn_length. lia. }
    exists w2. now rewrite firstn_skipn.
Qed.
Lemma writes_fmt b : writes step (write_fmt step cut b) b.
Proof.
  unfold write_fmt. rewrite <- (cut_ok b) at 2. induction (cut b) as [|x l IH]; [exact writes_nil|].
  cbn [write_pieces concat]. apply writes_then; [apply writes_all|exact IH].
Qed.
Lemma writes_eq p a b : a = b -> writes step p a -> writes step p b.
Proof. now intros ->. Qed.
Hint Resolve writes_nil writes_all writes_fmt writes_then : wr.

(** Everything that can be sent, on every writer: a beginning of its text is
    written, all of it exactly on success. *)
Theorem C57_domain : forall d, writes step (domain_send_to step cut d) (domain_send d).
Proof. intros [s|a|a]; cbn [domain_send_to domain_send]; auto with wr. Qed.
Theorem C57_email : forall e, writes step (email_send_to step cut e) (email_send e).
Proof.
  intros [l [h|]]; unfold email_send_to, email_send; cbn [em_localpart em_hostname]; auto using C57_domain with wr.
Qed.
Lemma opt_email_writes e : writes step (opt_email_send_to step cut e) (opt_email_send e).
Proof. destruct e; [apply C57_email|apply writes_nil]. Qed.
Theorem C57_parameters : forall p, writes step (params_send_to step p) (params_send p).
Proof.
  induction p as [|[k [v|]] p IH]; cbn [params_send_to params_send]; unfold smtp_send_to; auto 8 with wr.
Qed.
Lemma verb_writes verb arg text : writes step arg text -> writes step (verb_send_to step verb arg) (verb ++ text ++ CRLF).
Proof. intros H. unfold verb_send_to. auto with wr. Qed.
Lemma path_writes verb arg text p : writes step arg text ->
  writes step (path_send_to step verb arg p) (verb ++ text ++ s2b ">" ++ params_send p ++ CRLF).
Proof. intros H. unfold path_send_to. auto 8 using C57_parameters with wr. Qed.
Theorem C57_command : forall c, writes step (command_send_to step cut c) (command_send c).
Proof.
  intros c. destruct c; cbn [command_send_to command_send];
    auto using verb_writes, path_writes, C57_domain, C57_email, opt_email_writes, writes_all.
Qed.
Theorem C57_reply : forall r, writes step (reply_send_to step r) (reply_send r).
Proof. intros r. unfold reply_send_to, reply_send. auto with wr. Qed.
End Write.
Print Assumptions C57_command.
Print Assumptions C57_reply.

(** [from_sendable] is the text, given fuel for as many calls as it has bytes. *)
Theorem C57_from_sendable : forall (p : @writing unit) text fuel,
  writes vec_step p text -> length text <= fuel -> from_sendable p fuel = Some text.
Proof.
  intros p text fuel (_ & _ & P) H. unfold from_sendable. destruct (P) with (fuel := fuel) (w := tt) as (w' & ->).
  - intros w b Hb. exists (length b), tt. split; [reflexivity|]. destruct b; [congruence|cbn; lia].
  - exact H.
  - reflexivity.
Qed.
Print Assumptions C57_from_sendable.

(** A buffer of fixed capacity takes a reply line exactly if it is large enough;
    the capacity that [interact] asks for is. *)
Lemma room_write_all b : forall fuel room, length b < fuel ->
  write_all bytesmut_step b fuel room
  = if Nat.leb (length b) room then (WDone, b, room - length b) else (WFailed, firstn room b, 0).
Proof.
  unfold write_all. intros fuel room H. destruct fuel as [|fuel]; [lia|].
  destruct b as [|c b]; [now rewrite Nat.sub_0_r|]. cbn [write_all_fuel].
  unfold bytesmut_step at 1. destruct (Nat.leb_spec (length (c :: b)) room) as [L|L].
  - rewrite Nat.min_r by exact L. cbn [length] in *. destruct (Nat.ltb_spec (S (length b)) (S (length b))); [lia|].
    rewrite skipn_all2 by (cbn [length]; lia). rewrite firstn_all2 by (cbn [length]; lia).
    destruct fuel; cbn [write_all_fuel]; now rewrite app_nil_r.
  - rewrite Nat.min_l by lia. destruct room as [|room]; [reflexivity|].
    destruct (Nat.ltb_spec (length (c :: b)) (S room)); [lia|].
    assert (X : skipn (S room) (c :: b) <> []).
    { intros X. apply (f_equal (@length _)) in X. rewrite skipn_length in X. cbn [length] in *. lia. }
    destruct (skipn (S room) (c :: b)) as [|x l]; [congruence|]. destruct fuel as [|fuel]; [cbn [length] in *; lia|].
    cbn [write_all_fuel]. unfold bytesmut_step. rewrite Nat.sub_diag. cbn [Nat.min]. now rewrite app_nil_r.
Qed.
Theorem C57_reply_buffer : forall r room fuel, length (reply_send r) < fuel ->
  (fst (fst (reply_send_to bytesmut_step r fuel room)) = WDone <-> length (reply_send r) <= room)
  /\ fst (fst (reply_send_to bytesmut_step r fuel (reply_byte_len r))) = WDone.
Proof.
  intros r room fuel H.
  assert (L : length (reply_send r) = reply_byte_len r).
  { unfold reply_send, reply_byte_len. rewrite !app_length. destruct (rl_last r); cbn; lia. }
  assert (G : forall room, fst (fst (reply_send_to bytesmut_step r fuel room)) = WDone <-> length (reply_send r) <= room).
  { clear room. intros room. rewrite L in *. unfold reply_byte_len in *.
    unfold reply_send_to, w_then. rewrite room_write_all by (cbn [length]; lia). cbn [length].
    destruct (Nat.leb_spec 3 room) as [L1|L1]; [|split; [discriminate|lia]].
    rewrite room_write_all by (destruct (rl_last r); cbn [length s2b]; cbn; lia).
    assert (length (if rl_last r then s2b " " else s2b "-") = 1) as -> by now destruct (rl_last r).
    destruct (Nat.leb_spec 1 (room - 3)) as [L2|L2]; [|split; [discriminate|lia]].
    rewrite room_write_all by lia.
    destruct (Nat.leb_spec (length (rl_line r)) (room - 3 - 1)) as [L3|L3]; [|split; [discriminate|lia]].
    rewrite room_write_all by (cbn; lia).
    destruct (Nat.leb_spec (length CRLF) (room - 3 - 1 - length (rl_line r))) as [L4|L4]; cbn in L4; cbn [fst];
      (split; [try discriminate; intros _; lia|intros; try reflexivity; lia]). }
  split; [apply G|]. apply G. lia.
Qed.
Print Assumptions C57_reply_buffer.

(** A writer that takes three bytes at a time, is interrupted now and then, and
    fails after a while: nothing but a beginning of the command goes out. *)
Definition moody (w : nat) (b : bytes) : wanswer * nat :=
  (if Nat.ltb 20 w then WErr else if Nat.even w then WInterrupted else WOk (min 3 (length b)), S w).
Example C57_example :
  honest moody
  /\ fst (command_send_to moody (fun b => [b]) (Noop (s2b "hello")) 40 0) = (WDone, s2b "NOOP hello" ++ CRLF)
  /\ fst (command_send_to moody (fun b => [b]) (Noop (s2b "hello, is anybody there? Please")) 40 0)
     = (WFailed, s2b "NOOP hello, is anybody there?")
  /\ willing vec_step.
Proof.
  split; [|split; [vm_compute; reflexivity|split; [vm_compute; reflexivity|]]].
  - intros w b n w' E. unfold moody in E. destruct (Nat.ltb 20 w); [discriminate|]. destruct (Nat.even w); [discriminate|].
    assert (n = min 3 (length b)) by congruence. lia.
  - intros w b Hb. exists (length b), tt. split; [reflexivity|]. destruct b; [congruence|cbn; lia].
Qed.
