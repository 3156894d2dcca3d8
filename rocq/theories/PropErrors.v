(** C67: what the errors of the parsers tell. *)
From Coq Require Import List Arith NArith Bool Lia.
Import ListNotations.
From Verif Require Import Bytes Nom Ip Message Reply SpecData SpecGrammar SpecReply DataLines NomLemmas IpProofs
  GrammarProofs CommandProofs ReplyProofs PropGrammar PropReply.

Lemma nom_to_result_rest {A} (d : iresult A) n : nom_to_result d = PDidNotConsumeEverything n <->
  exists r x, d = Done r x /\ r <> [] /\ n = length r.
Proof.
  destruct d as [[|c r] y| | |]; cbn; split; try discriminate; try (now intros (r' & x & [=] & _)).
  - intros (r' & x & [= <- <-] & H & _). now destruct H.
  - intros [= <-]. exists (c :: r), y. now repeat split.
  - intros (r' & x & [= <- <-] & _ & ->). reflexivity.
Qed.

(** DidNotConsumeEverything(n): the input without its last [n] bytes is a command; and whenever
    a command is followed by something, that is the answer. *)
Theorem C67_trailing_bytes : forall b n, command_parse b = PDidNotConsumeEverything n <->
  exists u v c, b = u ++ v /\ command_text u c /\ v <> [] /\ n = length v.
Proof.
  intros b n. unfold command_parse. rewrite nom_to_result_rest. split.
  - intros (r & c & E & Hr & Hn). apply command_sound in E. destruct E as (u & -> & Hu). exists u, r, c. auto.
  - intros (u & v & c & -> & Hu & Hv & Hn). destruct (command_complete u v c Hu) as (c' & E & _). exists v, c'. auto.
Qed.
(** The first command can be cut off and parsed by itself. *)
Theorem C67_first_command : forall b n, command_parse b = PDidNotConsumeEverything n ->
  (0 < n <= length b)%nat /\ exists c, command_parse (firstn (length b - n) b) = POk c.
Proof.
  intros b n H. apply C67_trailing_bytes in H. destruct H as (u & v & c & -> & Hu & Hv & ->).
  rewrite app_length. destruct v as [|x v]; [now destruct Hv|]. split; [cbn; lia|].
  rewrite firstn_app. replace (length u + length (x :: v) - length (x :: v))%nat with (length u) by lia.
  rewrite Nat.sub_diag, firstn_all. cbn [firstn]. rewrite app_nil_r.
  destruct (C13_accepts_all_the_grammar u c Hu) as (c' & E & _). now exists c'.
Qed.
(** No command is the beginning of another one. *)
Theorem C67_prefix_free : forall u v c c', command_text u c -> command_text (u ++ v) c' -> v = [].
Proof.
  intros u v c c' H1 H2. apply C13_accepts_all_the_grammar in H2. destruct H2 as (d & E & _).
  destruct v as [|x v]; [reflexivity|]. assert (K : command_parse (u ++ x :: v) = PDidNotConsumeEverything (length (x :: v))).
  { apply C67_trailing_bytes. exists u, (x :: v), c. repeat split; auto. discriminate. }
  congruence.
Qed.
(** On input that ends in CRLF, ParseError means: it does not begin with a command. *)
Theorem C67_parse_error : forall u, command_parse (u ++ CRLF) = PParseError <->
  forall s v c, u ++ CRLF = s ++ v -> ~ command_text s c.
Proof.
  intros u. split.
  - intros E s v c Eq Hs. destruct (command_complete s v c Hs) as (c' & K & _). unfold command_parse in E. rewrite Eq, K in E.
    destruct v; discriminate E.
  - intros N. destruct (command_parse (u ++ CRLF)) as [c|n| | |] eqn:E.
    + apply C13_accepts_only_the_grammar in E. destruct (N (u ++ CRLF) [] c); [now rewrite app_nil_r|exact E].
    + apply C67_trailing_bytes in E. destruct E as (s & v & c & Eq & Hs & _). now destruct (N s v c Eq).
    + reflexivity.
    + now apply C14_complete_lines_decided in E.
    + now apply C14_always_terminates in E.
Qed.

(** ** Replies *)
(** What ReplyLine::parse reads as a code: three digits, or a plus sign and two digits. *)
Definition code_text (num : bytes) : Prop :=
  (exists code, three_digits code num) \/ exists a b, (a < 10)%N /\ (b < 10)%N /\ num = [43; 48 + a; 48 + b]%N.
Definition reply_text (s : bytes) : Prop := exists num last text,
  code_text num /\ is_line text /\ s = num ++ [if last : bool then SP else 45%N] ++ text ++ CRLF.
Lemma code_text_reads num : code_text num <-> exists code, reads_as num code.
Proof.
  split.
  - intros [(code & a & b & c & Ha & Hb & Hc & -> & ->)|(a & b & Ha & Hb & ->)].
    + eexists. left. exists a, b, c. repeat split; auto.
    + eexists. right. exists a, b. repeat split; auto.
  - intros (code & [(a & b & c & Ha & Hb & Hc & -> & ->)|(b & c & Hb & Hc & -> & ->)]).
    + left. eexists. exists a, b, c. repeat split; auto.
    + right. exists b, c. auto.
Qed.
Lemma reply_p_Done i r x : reply_p i = Done r x -> exists s, i = s ++ r /\ reply_text s.
Proof.
  unfold reply_p. destruct (reply_code_p i) as [i1 v| | |] eqn:E1; try discriminate. cbn [bind].
  destruct (reply_last_p i1) as [i2 l| | |] eqn:E2; try discriminate. cbn [bind].
  destruct (take_until_and_consume CRLF i2) as [i3 y| | |] eqn:E3; try discriminate. cbn [bind].
  intros [= <- _]. apply reply_code_Done in E1. apply reply_last_Done in E2. apply take_crlf_Done in E3.
  destruct E1 as (num & Hn & ->), E3 as [Hx ->]. subst i1. exists (num ++ [if l then SP else 45%N] ++ y ++ CRLF). split.
  - now rewrite <- !app_assoc.
  - exists num, l, y. split; [apply code_text_reads; eauto|auto].
Qed.
Lemma reply_p_all s r : reply_text s -> exists x, reply_p (s ++ r) = Done r x.
Proof.
  intros (num & last & text & Hn & Hx & ->). apply code_text_reads in Hn. destruct Hn as [code Hn]. unfold reply_p. rewrite <- !app_assoc.
  rewrite (proj2 (reply_code_Done _ ([if last then SP else 45%N] ++ text ++ CRLF ++ r) code)); [|eauto]. cbn [bind].
  rewrite (proj2 (reply_last_Done _ (text ++ CRLF ++ r) last)) by reflexivity. cbn [bind].
  rewrite (proj2 (take_crlf_Done _ r text)) by auto. cbn [bind]. eauto.
Qed.
Theorem C67_reply_trailing_bytes : forall b n, reply_parse b = PDidNotConsumeEverything n <->
  exists u v, b = u ++ v /\ reply_text u /\ v <> [] /\ n = length v.
Proof.
  intros b n. unfold reply_parse. rewrite nom_to_result_rest. split.
  - intros (r & c & E & Hr & Hn). apply reply_p_Done in E. destruct E as (u & -> & Hu). exists u, r. auto.
  - intros (u & v & -> & Hu & Hv & Hn). destruct (reply_p_all u v Hu) as (c' & E). exists v, c'. auto.
Qed.
Lemma code_digits num : code_text num -> exists x y z, num = [x; y; z] /\ (48 <= y)%N /\ (48 <= z)%N.
Proof.
  intros [(code & a & b & c & Ha & Hb & Hc & -> & ->)|(a & b & Ha & Hb & ->)]; eexists _, _, _; (split; [reflexivity|lia]).
Qed.
Lemma tag1 t c i : tag [t] (c :: i) = Done i [c] \/ tag [t] (c :: i) = Err.
Proof. unfold tag, tag_with. cbn. destruct i; match goal with |- context [if ?b then _ else _] => destruct b end; cbn; auto. Qed.
Lemma reply_decided u : u <> [] -> reply_parse (u ++ CRLF) <> PIncompleteString /\ reply_parse (u ++ CRLF) <> POutOfFuel.
Proof.
  intros Hu. assert (L : (3 <= length (u ++ CRLF))%nat) by (rewrite app_length; destruct u; [now destruct Hu|cbn; lia]).
  assert (K : reply_p (u ++ CRLF) <> Incomplete /\ reply_p (u ++ CRLF) <> OutOfFuel).
  { unfold reply_p. destruct (reply_code_p (u ++ CRLF)) as [i1 v| | |] eqn:E1; cbn [bind].
    2: split; discriminate.
    2, 3: exfalso; unfold reply_code_p, verify, map_res, take in E1; apply Nat.leb_le in L; rewrite L in E1; cbn [bind] in E1;
      destruct (u16_from_str _); cbn [bind] in E1; [destruct (_ <? _)%N in E1|]; discriminate.
    apply reply_code_Done in E1. destruct E1 as (num & Hn & Ei).
    assert (Hc : code_text num) by (apply code_text_reads; eauto). destruct (code_digits _ Hc) as (x & y & z & -> & Hy & Hz).
    assert (E2 : exists i2 c, i1 = c :: i2).
    { destruct i1 as [|c i2]; [|eauto]. exfalso. cbn [app] in Ei. apply (f_equal (fun l => last l 0%N)) in Ei.
      change CRLF with ([CR] ++ [LF]) in Ei. rewrite app_assoc, last_last in Ei. cbn in Ei. unfold LF in Ei. lia. }
    destruct E2 as (i2 & c & ->).
    destruct (reply_last_p (c :: i2)) as [i3 l| | |] eqn:E3; cbn [bind].
    2: split; discriminate.
    2, 3: exfalso; destruct (tag1 45%N c i2) as [T|T], (tag1 SP c i2) as [T'|T']; unfold reply_last_p, pmap, alt in E3; change (s2b "-") with [45%N] in E3; change (s2b " ") with [SP] in E3; rewrite T in E3; cbn [bind] in E3; try discriminate; rewrite T' in E3; discriminate.
    apply reply_last_Done in E3. injection E3 as Ec Ej. subst c i2.
    assert (L2 : (2 <= length i3)%nat).
    { destruct i3 as [|p [|q i3]]; cbn [length]; [| |lia]; exfalso; cbn [app] in Ei; apply (f_equal (@rev N)) in Ei;
        rewrite rev_app_distr in Ei; destruct l; cbn in Ei; discriminate Ei. }
    unfold take_until_and_consume. replace (Nat.ltb (length i3) (length CRLF)) with false by (symmetry; apply Nat.ltb_ge; exact L2).
    destruct (find_sub CRLF i3); cbn [bind]; split; discriminate. }
  destruct K as [K1 K2]. unfold reply_parse. destruct (reply_p (u ++ CRLF)) as [[|? ?] x| | |]; cbn; split; try discriminate; congruence.
Qed.
Theorem C67_reply_parse_error : forall u, u <> [] -> (reply_parse (u ++ CRLF) = PParseError <->
  forall s v, u ++ CRLF = s ++ v -> ~ reply_text s).
Proof.
  intros u Hu. split.
  - intros E s v Eq Hs. destruct (reply_p_all s v Hs) as (c' & K). unfold reply_parse in E. rewrite Eq, K in E. destruct v; discriminate E.
  - intros N. destruct (reply_decided u Hu) as [D1 D2]. unfold reply_parse in *. destruct (reply_p (u ++ CRLF)) as [r x| | |] eqn:E.
    + apply reply_p_Done in E. destruct E as (s & Eq & Hs). now destruct (N s r Eq).
    + reflexivity.
    + now destruct D1.
    + now destruct D2.
Qed.

(** ** Addresses and domains *)
(** DidNotConsumeEverything(n): the input without its last [n] bytes is an address (a domain). *)
Theorem C67_email_trailing_bytes : forall b n, email_parse b = PDidNotConsumeEverything n ->
  exists u v e, b = u ++ v /\ email_text u e /\ v <> [] /\ n = length v.
Proof.
  intros b n. unfold email_parse. rewrite nom_to_result_rest. intros (r & e & E & Hr & Hn). apply email_sound in E.
  destruct E as (u & -> & Hu). exists u, r, e. auto.
Qed.
Theorem C67_domain_trailing_bytes : forall b n, domain_parse b = PDidNotConsumeEverything n ->
  exists u v d, b = u ++ v /\ domain_text u d /\ v <> [] /\ n = length v.
Proof.
  intros b n. unfold domain_parse. rewrite nom_to_result_rest. intros (r & e & E & Hr & Hn). apply hostname_sound in E.
  destruct E as (u & -> & Hu). exists u, r, e. auto.
Qed.

(** ** Unfinished input *)
(** ParseError on input that is not a complete line does not mean that it cannot become a command. *)
Theorem C67_error_before_the_end : command_parse (s2b "NOOP xyz") = PParseError
  /\ command_parse (s2b "NOOP xyz" ++ CRLF) = POk (Noop (s2b "xyz"))
  /\ command_parse (s2b "EHLO foo.") = PParseError
  /\ command_parse (s2b "EHLO foo." ++ s2b "bar" ++ CRLF) = POk (Ehlo (Host (s2b "foo.bar")))
  /\ reply_parse (s2b "250-foo") = PParseError
  /\ reply_parse (s2b "250-foo" ++ CRLF) = POk (ReplyLine 250 false (s2b "foo")).
Proof. repeat split. Qed.

Example C67_example :
  command_parse (s2b "QUIT" ++ CRLF ++ s2b "NOOP" ++ CRLF) = PDidNotConsumeEverything 6
  /\ command_text (s2b "QUIT" ++ CRLF) Quit
  /\ command_parse (s2b "QUIX" ++ CRLF) = PParseError
  /\ reply_parse (s2b "250 ok" ++ CRLF ++ s2b "x") = PDidNotConsumeEverything 1 /\ reply_text (s2b "250 ok" ++ CRLF)
  /\ reply_parse (s2b "2500 ok" ++ CRLF) = PParseError
  /\ email_parse (s2b "a@b>") = PDidNotConsumeEverything 1
  /\ domain_parse (s2b "a.b c") = PDidNotConsumeEverything 2.
Proof.
  repeat split.
  - now apply C13_accepts_only_the_grammar.
  - exists (s2b "250"), true, (s2b "ok"). repeat split.
    + left. exists 250%N, 2%N, 5%N, 0%N. repeat split.
    + intros (a & b & E). destruct a as [|x [|y [|z a]]]; discriminate E.
Qed.

Print Assumptions C67_trailing_bytes.
Print Assumptions C67_first_command.
Print Assumptions C67_prefix_free.
Print Assumptions C67_parse_error.
Print Assumptions C67_reply_trailing_bytes.
Print Assumptions C67_reply_parse_error.
Print Assumptions C67_email_trailing_bytes.
Print Assumptions C67_domain_trailing_bytes.
Print Assumptions C67_error_before_the_end.
