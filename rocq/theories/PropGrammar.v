(** Properties C13-C24: commands, addresses, parameters, domains. *)
From Coq Require Import Permutation.
From Verif Require Import Bytes Nom Ip Message SpecData SpecGrammar DataLines NomLemmas IpProofs
  GrammarProofs CommandProofs StreamProofs RoundTrip.

(** ** C13 *)
Theorem C13_accepts_only_the_grammar : forall b c, command_parse b = POk c -> command_text b c.
Proof. exact command_parse_sound. Qed.
Print Assumptions C13_accepts_only_the_grammar.
Theorem C13_accepts_all_the_grammar : forall b c, command_text b c ->
  exists c', command_parse b = POk c' /\ command_eq c c'.
Proof. exact command_parse_complete. Qed.
Print Assumptions C13_accepts_all_the_grammar.
(** The grammar gives a line at most one meaning. *)
Theorem C13_grammar_unambiguous : forall b c1 c2, command_text b c1 -> command_text b c2 -> command_eq c1 c2.
Proof.
  intros b c1 c2 H1 H2. apply command_parse_complete in H1, H2.
  destruct H1 as (d1 & E1 & H1), H2 as (d2 & E2 & H2). rewrite E1 in E2. injection E2 as <-.
  eapply command_eq_trans; [exact H1|]. now apply command_eq_sym.
Qed.
Print Assumptions C13_grammar_unambiguous.

(** A concrete sentence, with a source route, a quoted local part, an IPv6
    literal, parameters and odd blanks. *)
Definition fancy_line : bytes :=
  s2b "mAiL fRoM:  <@a.example,@[127.0.0.1]:""a\""b""@[IPv6:2001:db8::1]> SIZE=10	BODY=8BITMIME SIZE=20  " ++ CRLF.
Definition fancy_email : email :=
  Email (s2b """a\""b""") (Some (Addr6 [8193; 3512; 0; 0; 0; 0; 0; 1]%N)).
Definition fancy_params : parameters :=
  [(s2b "SIZE", Some (s2b "20")); (s2b "BODY", Some (s2b "8BITMIME"))].
Example C13_example : command_parse fancy_line = POk (Mail (Some fancy_email) fancy_params)
  /\ command_text fancy_line (Mail (Some fancy_email) fancy_params).
Proof.
  assert (H : command_parse fancy_line = POk (Mail (Some fancy_email) fancy_params)) by (vm_compute; reflexivity).
  split; [exact H|]. now apply C13_accepts_only_the_grammar.
Qed.
(** Quirks of the grammar as it is: the blank after EHLO, HELO, HELP and NOOP is
    optional, EHLO and HELO may be preceded by blanks, and the route may be an
    empty list. *)
Example C13_quirks :
  command_parse (s2b "EHLOfoo.example" ++ CRLF) = POk (Ehlo (Host (s2b "foo.example")))
  /\ command_parse (s2b "  HELO foo" ++ CRLF) = POk (Helo (Host (s2b "foo")))
  /\ command_parse (s2b "HELPme" ++ CRLF) = POk (Help (s2b "me"))
  /\ command_parse (s2b "RCPT TO::foo@bar" ++ CRLF)
     = POk (Rcpt (Email (s2b "foo") (Some (Host (s2b "bar")))) [])
  /\ command_parse (s2b " DATA" ++ CRLF) = PParseError.
Proof. repeat split; vm_compute; reflexivity. Qed.

(** ** C14 *)
Theorem C14_complete_lines_decided : forall u,
  command_parse (u ++ CRLF) <> PIncompleteString.
Proof.
  intros u H. unfold command_parse in H. apply nom_to_result_inc in H. revert H. apply command_term. now exists u.
Qed.
Print Assumptions C14_complete_lines_decided.
Theorem C14_always_terminates : forall b, command_parse b <> POutOfFuel.
Proof. intros b H. unfold command_parse in H. apply nom_to_result_fuel in H. revert H. apply command_fuel. Qed.
Print Assumptions C14_always_terminates.
(** The three possible answers do occur, on lines that end in CRLF; and an
    unfinished line is reported as such. *)
Example C14_example :
  command_parse (s2b "QUIT" ++ CRLF) = POk Quit
  /\ command_parse (s2b "QUIX" ++ CRLF) = PParseError
  /\ command_parse (s2b "QUIT" ++ CRLF ++ s2b "x" ++ CRLF) = PDidNotConsumeEverything 3
  /\ command_parse (s2b "QUI") = PIncompleteString.
Proof. repeat split; vm_compute; reflexivity. Qed.

(** ** C15 *)
Theorem C15_round_trip : forall c, wf_command c ->
  exists c', command_parse (command_send c) = POk c' /\ command_eq c c'.
Proof. intros c H. apply command_parse_complete. now apply command_send_text. Qed.
Print Assumptions C15_round_trip.
(** The iteration order of the parameter map does not matter. *)
Theorem C15_round_trip_any_order : forall from to m m',
  Permutation m m' ->
  (wf_command (Mail from m) ->
     exists c', command_parse (command_send (Mail from m')) = POk c' /\ command_eq (Mail from m) c')
  /\ (wf_command (Rcpt to m) ->
     exists c', command_parse (command_send (Rcpt to m')) = POk c' /\ command_eq (Rcpt to m) c').
Proof.
  intros f t m m' P. split; intros [H1 H2].
  - destruct (C15_round_trip (Mail f m')) as (c' & E & Hc).
    { split; [exact H1|]. now apply (permutation_wf_params m). }
    exists c'. split; [exact E|]. eapply command_eq_trans; [|exact Hc].
    constructor. apply permutation_params_eq; [apply H2|exact P].
  - destruct (C15_round_trip (Rcpt t m')) as (c' & E & Hc).
    { split; [exact H1|]. now apply (permutation_wf_params m). }
    exists c'. split; [exact E|]. eapply command_eq_trans; [|exact Hc].
    constructor. apply permutation_params_eq; [apply H2|exact P].
Qed.
Print Assumptions C15_round_trip_any_order.
(** Every parsed command is well formed, so it can be re-sent faithfully. *)
Theorem C15_parsed_commands_resend : forall b c, command_parse b = POk c ->
  wf_command c /\ exists c', command_parse (command_send c) = POk c' /\ command_eq c c'.
Proof.
  intros b c H. assert (W : wf_command c) by (eapply command_text_wf, command_parse_sound; eauto).
  split; [exact W|now apply C15_round_trip].
Qed.
Print Assumptions C15_parsed_commands_resend.
Example C15_example : wf_command (Mail (Some fancy_email) fancy_params)
  /\ command_send (Mail (Some fancy_email) fancy_params)
     = s2b "MAIL FROM:<""a\""b""@[IPv6:2001:db8::1]> SIZE=20 BODY=8BITMIME" ++ CRLF.
Proof.
  split; [|vm_compute; reflexivity].
  apply (C15_parsed_commands_resend fancy_line). apply C13_example.
Qed.

(** ** C16 *)
Theorem C16_verb_case_ignored : forall verb v v' w rest,
  In verb verbs -> blanks w -> same_ci v verb -> same_ci v' verb ->
  command_parse (w ++ v ++ rest) = command_parse (w ++ v' ++ rest).
Proof.
  intros verb v v' w rest Hin Hw Hv Hv'. unfold command_parse. f_equal. now apply (command_recase verb).
Qed.
Print Assumptions C16_verb_case_ignored.
(** Nothing else is folded: arguments come back byte for byte. *)
Theorem C16_argument_verbatim : forall v s, is_line s ->
  (same_ci v (s2b "VRFY") -> command_parse (v ++ s2b " " ++ s ++ CRLF) = POk (Vrfy s))
  /\ (same_ci v (s2b "EXPN") -> command_parse (v ++ s2b " " ++ s ++ CRLF) = POk (Expn s))
  /\ (same_ci v (s2b "NOOP") -> command_parse (v ++ s2b " " ++ s ++ CRLF) = POk (Noop s))
  /\ (same_ci v (s2b "HELP") -> command_parse (v ++ s2b " " ++ s ++ CRLF) = POk (Help s)).
Proof.
  intros v s Hs. assert (Hb : blank SP) by now left.
  repeat split; intros Hv.
  - destruct (command_parse_complete (v ++ s2b " " ++ s ++ CRLF) (Vrfy s)) as (c & E & Hc);
      [now apply CT_vrfy|]. inversion Hc; subst; exact E.
  - destruct (command_parse_complete (v ++ s2b " " ++ s ++ CRLF) (Expn s)) as (c & E & Hc);
      [now apply CT_expn|]. inversion Hc; subst; exact E.
  - destruct (command_parse_complete (v ++ (SP :: s) ++ CRLF) (Noop s)) as (c & E & Hc);
      [apply CT_noop; auto; left; eauto|]. inversion Hc; subst; exact E.
  - destruct (command_parse_complete (v ++ (SP :: s) ++ CRLF) (Help s)) as (c & E & Hc);
      [apply CT_help; auto; left; eauto|]. inversion Hc; subst; exact E.
Qed.
Print Assumptions C16_argument_verbatim.
Example C16_example : In (s2b "RCPT TO:") verbs /\ same_ci (s2b "rCpT tO:") (s2b "RCPT TO:")
  /\ ~ same_ci (s2b "RCPT T0:") (s2b "RCPT TO:").
Proof. split; [cbn; tauto|]. split; [reflexivity|]. intros H. vm_compute in H. discriminate. Qed.

(** ** C17 *)
(** The first four bytes after the blanks decide the kind of command. *)
Theorem C17_verb_determines_kind : forall b1 b2 c1 c2 w1 w2 v1 v2 r1 r2,
  command_parse b1 = POk c1 -> command_parse b2 = POk c2 ->
  b1 = w1 ++ v1 ++ r1 -> b2 = w2 ++ v2 ++ r2 -> blanks w1 -> blanks w2 ->
  length v1 = 4 -> length v2 = 4 ->
  (forall c v, v1 = c :: v -> ~ blank c) -> (forall c v, v2 = c :: v -> ~ blank c) ->
  same_ci v1 v2 -> verb_of c1 = verb_of c2.
Proof.
  assert (Hgen : forall b c w v r, command_parse b = POk c -> b = w ++ v ++ r -> blanks w -> length v = 4 ->
    (forall x v', v = x :: v' -> ~ blank x) -> same_ci v (firstn 4 (verb_of c))).
  { intros b c w v r H E Hw Hl Hh. apply command_parse_sound, command_text_verb in H.
    destruct H as (w' & v' & r' & E' & Hw' & Hv'). rewrite E in E'.
    assert (Hlen : 4 <= length v').
    { apply (f_equal (@length _)) in Hv'. rewrite !map_length in Hv'. rewrite Hv'. destruct c; cbn; lia. }
    assert (Hst : stops (fun x => mem x spaces) (v' ++ r')).
    { apply (verb_stops_blank (verb_of c)); [exact Hv'|]. destruct c; reflexivity. }
    assert (Hst2 : stops (fun x => mem x spaces) (v ++ r)).
    { destruct v as [|x v]; [discriminate|]. cbn [app stops]. apply mem_not_In. intros C. apply blank_in in C.
      now apply (Hh x v). }
    pose proof (span_app _ w (v ++ r) (proj1 (over_set_mem _ _) Hw) Hst2) as S1.
    pose proof (span_app _ w' (v' ++ r') (proj1 (over_set_mem _ _) Hw') Hst) as S2.
    rewrite E' in S1. unfold spaces in S2. rewrite S1 in S2. injection S2 as <- E2.
    apply (f_equal (firstn 4)) in E2. rewrite !firstn_app in E2. rewrite Hl in E2.
    replace (4 - length v') with 0 in E2 by lia.
    change (firstn (4 - 4) r) with (@nil N) in E2. change (firstn 0 r') with (@nil N) in E2.
    rewrite !app_nil_r in E2. rewrite (firstn_all2 (n := 4) v) in E2 by lia. rewrite E2.
    now apply same_ci_firstn. }
  intros b1 b2 c1 c2 w1 w2 v1 v2 r1 r2 P1 P2 E1 E2 W1 W2 L1 L2 H1 H2 Hci.
  pose proof (Hgen _ _ _ _ _ P1 E1 W1 L1 H1) as G1. pose proof (Hgen _ _ _ _ _ P2 E2 W2 L2 H2) as G2.
  assert (G : same_ci (firstn 4 (verb_of c1)) (firstn 4 (verb_of c2))) by (unfold same_ci in *; congruence).
  clear -G. destruct c1, c2; try reflexivity; vm_compute in G; discriminate.
Qed.
Print Assumptions C17_verb_determines_kind.
(** Distinct kinds have distinct verbs. *)
Example C17_example : NoDup verbs /\ NoDup (map (firstn 4) verbs).
Proof. split; repeat constructor; cbn; intros C; repeat (destruct C as [C|C]; [discriminate|]); contradiction. Qed.

(** ** C18 *)
Theorem C18_string_argument_one_line_iff : forall s,
  (one_line (command_send (Noop s)) <-> is_line s)
  /\ (one_line (command_send (Help s)) <-> is_line s)
  /\ (one_line (command_send (Vrfy s)) <-> is_line s)
  /\ (one_line (command_send (Expn s)) <-> is_line s).
Proof. intros s. repeat split; apply one_line_prefix; now apply clean_lit. Qed.
Print Assumptions C18_string_argument_one_line_iff.
Theorem C18_wf_command_one_line : forall c, wf_command c -> one_line (command_send c).
Proof.
  intros c H. destruct c as [|d|s|d|s|f m|s| |t m| |s]; cbn [wf_command command_send] in *.
  all: try (apply one_line_clean; now apply clean_lit).
  all: try (apply one_line_prefix; [now apply clean_lit|exact H]).
  1,2: rewrite app_assoc; apply one_line_clean; apply clean_app; [now apply clean_lit|now apply domain_send_clean].
  - destruct H as [Hf Hm]. rewrite !app_assoc. apply one_line_clean.
    apply clean_app; [|now apply params_send_clean]. apply clean_app; [|now apply clean_lit].
    apply clean_app; [now apply clean_lit|]. destruct f; [now apply email_send_clean|constructor].
  - destruct H as [Ht Hm]. rewrite !app_assoc. apply one_line_clean.
    apply clean_app; [|now apply params_send_clean]. apply clean_app; [|now apply clean_lit].
    apply clean_app; [now apply clean_lit|]. now apply email_send_clean.
Qed.
Print Assumptions C18_wf_command_one_line.
(** Injection: the constructors accept an argument with CRLF in it, and what is
    then sent is two commands. *)
Theorem C18_injection : exists s, ~ one_line (command_send (Noop s))
  /\ command_send (Noop s) = command_send (Noop (s2b "x")) ++ command_send Quit.
Proof.
  exists (s2b "x" ++ CRLF ++ s2b "QUIT"). split; [|reflexivity].
  intros H. apply (proj1 (C18_string_argument_one_line_iff _)) in H. apply H.
  exists (s2b "x"), (s2b "QUIT"). reflexivity.
Qed.
Print Assumptions C18_injection.

(** ** C19 *)
Theorem C19_email_grammar : forall b e, email_parse b = POk e <-> email_text b e.
Proof. exact email_parse_iff. Qed.
Print Assumptions C19_email_grammar.
Theorem C19_email_round_trip : forall e, wf_email e -> email_parse (email_send e) = POk e.
Proof. intros e H. apply email_parse_iff. now apply email_send_text. Qed.
Print Assumptions C19_email_round_trip.
Theorem C19_parsed_email_resend : forall b e, email_parse b = POk e ->
  email_parse (email_send e) = POk e
  /\ (match em_hostname e with Some (Host _) | None => True | _ => False end -> email_send e = b).
Proof.
  intros b e H. apply email_parse_iff in H. split.
  - apply C19_email_round_trip. eapply email_text_wf; eauto.
  - destruct H as [l Hl|l t d Hl Ht]; unfold email_send; cbn [em_localpart em_hostname].
    + intros _. apply app_nil_r.
    + destruct Ht; try contradiction. reflexivity.
Qed.
Print Assumptions C19_parsed_email_resend.
Example C19_example : email_text (s2b """a\""b""@foo-1.example") (Email (s2b """a\""b""") (Some (Host (s2b "foo-1.example")))).
Proof. apply C19_email_grammar. vm_compute. reflexivity. Qed.

(** ** C20 *)
Theorem C20_localpart_of_parsed : forall b e, email_parse b = POk e ->
  exists s, email_localpart e = Some s /\ local_means (em_localpart e) s.
Proof.
  intros b e H. apply email_parse_iff, email_text_wf in H. destruct H as [H _].
  destruct (local_text_means _ H) as [s Hs]. exists s. split; [|exact Hs].
  destruct e as [l h]. now apply localpart_means.
Qed.
Print Assumptions C20_localpart_of_parsed.
(** The same for addresses in a parsed command. *)
Theorem C20_localpart_of_command : forall b c e m, command_parse b = POk c ->
  c = Mail (Some e) m \/ c = Rcpt e m ->
  exists s, email_localpart e = Some s /\ local_means (em_localpart e) s.
Proof.
  intros b c e m H Hc. assert (W : wf_email e).
  { apply command_parse_sound, command_text_wf in H. destruct Hc as [-> | ->]; apply H. }
  destruct W as [H1 _]. destruct (local_text_means _ H1) as [s Hs]. exists s. split; [|exact Hs].
  destruct e as [l h]. now apply localpart_means.
Qed.
Print Assumptions C20_localpart_of_command.
(** Every printable string can be written as a local part. *)
Theorem C20_every_printable_string_expressible : forall s, Forall printable s ->
  exists raw, email_parse raw = POk (Email raw None) /\ email_localpart (Email raw None) = Some s.
Proof.
  intros s Hs. destruct (printable_quotable s Hs) as (us & Hus & Hm).
  exists ([QUOTE] ++ concat us ++ [QUOTE]). split.
  - apply email_parse_iff. constructor. left. now exists us.
  - apply localpart_means. rewrite <- Hm. now constructor.
Qed.
Print Assumptions C20_every_printable_string_expressible.
(** On an address built by [Email::new], [localpart] panics exactly if the local
    part is empty, or starts with a quote and its unescaped rest does not end in one. *)
Theorem C20_localpart_panics_iff : forall raw h,
  email_localpart (Email raw h) = None <->
  raw = [] \/ exists l u, raw = QUOTE :: l /\ unescaped l u /\ forall u', u <> u' ++ [QUOTE].
Proof.
  intros raw h. unfold email_localpart. cbn [em_localpart].
  destruct raw as [|c l]; [split; auto|].
  destruct (N.eqb_spec c QUOTE) as [->|Hc]; cbn [negb].
  - pose proof (unescape_spec l) as Hu. set (res := unescape_scan false l) in *.
    destruct (rev res) as [|x r] eqn:E.
    + split; [|reflexivity]. intros _. right. exists l, res. repeat split; auto.
      intros u' ->. rewrite rev_app_distr in E. discriminate.
    + assert (Er : res = rev r ++ [x]) by (rewrite <- (rev_involutive res), E; reflexivity).
      destruct (N.eqb_spec x QUOTE) as [->|Hx].
      * split; [discriminate|]. intros [C|(l' & u & El & Hu' & Hn)]; [discriminate|].
        injection El as <-. apply unescaped_unique in Hu'. exfalso. apply (Hn (rev r)). rewrite Hu'. exact Er.
      * split; [|reflexivity]. intros _. right. exists l, res. repeat split; auto.
        intros u' Eu. rewrite Er in Eu. apply app_inj_tail in Eu. destruct Eu. congruence.
  - split; [discriminate|]. intros [C|(l' & u & El & _)]; [discriminate|]. injection El as -> _. congruence.
Qed.
Print Assumptions C20_localpart_panics_iff.
Example C20_example :
  email_localpart fancy_email = Some (s2b "a""b")
  /\ email_localpart (Email [] None) = None
  /\ email_localpart (Email (s2b """a\""") None) = Some (s2b "a")
  /\ email_localpart (Email (s2b """") None) = None.
Proof. repeat split; vm_compute; reflexivity. Qed.

(** ** C21 *)
Lemma mb_parse s e tail : maybe_bracketed_text s e -> stops emailc tail ->
  address_in_maybe_bracketed_path (s ++ tail) = Done tail e.
Proof. apply bpath_complete. Qed.
Lemma mb_stops s e : maybe_bracketed_text s e -> stops (fun c => mem c spaces) s /\ s <> [].
Proof.
  intros H. destruct (bpath_head_blank s e H) as (c & s' & -> & Hc). split; [|discriminate].
  cbn [stops]. now apply mem_not_In.
Qed.
Lemma mb_command v w t1 t2 e tail :
  same_ci v (s2b "MAIL FROM:") \/ same_ci v (s2b "RCPT TO:") -> blanks w ->
  maybe_bracketed_text t1 e -> maybe_bracketed_text t2 e ->
  (forall s, s = t1 \/ s = t2 -> address_in_maybe_bracketed_path (s ++ tail) = Done tail e
       /\ mail_from (s ++ tail) = Done tail (Some e)) ->
  command_parse (v ++ w ++ t1 ++ tail) = command_parse (v ++ w ++ t2 ++ tail).
Proof.
  intros Hv Hw H1 H2 HP. destruct (mb_stops _ _ H1) as [S1 N1]. destruct (mb_stops _ _ H2) as [S2 N2].
  unfold command_parse. f_equal. destruct Hv as [Hv|Hv].
  - rewrite !ci_eq_mail by exact Hv. rewrite mail_is.
    apply (path_command_same _ mail_from Mail v w t1 t2 (Some e) tail); auto; apply HP; auto.
  - rewrite !ci_eq_rcpt by exact Hv. rewrite rcpt_is.
    apply (path_command_same _ _ Rcpt v w t1 t2 e tail); auto; apply HP; auto.
Qed.
(** Any bytes [tail] may follow the closing bracket. *)
Theorem C21_source_route_ignored : forall v w r s e tail,
  same_ci v (s2b "MAIL FROM:") \/ same_ci v (s2b "RCPT TO:") -> blanks w ->
  route_text r -> email_text s e ->
  command_parse (v ++ w ++ (s2b "<" ++ (r ++ s) ++ s2b ">") ++ tail)
  = command_parse (v ++ w ++ (s2b "<" ++ s ++ s2b ">") ++ tail).
Proof.
  intros v w r s e tail Hv Hw Hr Hs.
  assert (P1 : path_text (r ++ s) e) by now constructor. assert (P2 : path_text s e) by now constructor.
  assert (Hb : forall p, path_text p e -> bracketed_path ((s2b "<" ++ p ++ s2b ">") ++ tail) = Done tail e).
  { intros p Hp. unfold bracketed_path. rewrite <- !app_assoc, tag_app. cbn [bind].
    rewrite (path_complete p _ e Hp) by reflexivity. cbn [bind]. rewrite tag_app. reflexivity. }
  assert (Hm : forall p, path_text p e -> mail_from ((s2b "<" ++ p ++ s2b ">") ++ tail) = Done tail (Some e)).
  { intros p Hp. unfold mail_from. rewrite alt_second.
    - unfold pmap, address_in_maybe_bracketed_path. rewrite (alt_first _ _ _ _ _ (Hb p Hp)). reflexivity.
    - destruct (path_text_head p e Hp) as (d & p' & -> & Hd). apply bind_Err. unfold tag, tag_with. cbn [app s2b compare_with].
      assert (Hn : (d =? 62)%N = false) by (apply N.eqb_neq; neq_set Hd).
      change (N_of_ascii "<") with LT. rewrite N.eqb_refl. change (N_of_ascii ">") with 62%N.
      cbn [compare_with]. now rewrite Hn. }
  apply (mb_command _ _ _ _ e); auto; try (now constructor).
  intros p [-> | ->]; (split; [|now apply Hm]); apply alt_first; now apply Hb.
Qed.
Print Assumptions C21_source_route_ignored.
(** Brackets are optional when a blank, CR or nothing follows. *)
Theorem C21_brackets_optional : forall v w p e tail,
  same_ci v (s2b "MAIL FROM:") \/ same_ci v (s2b "RCPT TO:") -> blanks w -> path_text p e ->
  match tail with [] => True | c :: _ => blank c \/ c = CR end ->
  command_parse (v ++ w ++ (s2b "<" ++ p ++ s2b ">") ++ tail) = command_parse (v ++ w ++ p ++ tail).
Proof.
  intros v w p e tail Hv Hw Hp Ht.
  assert (Hst : stops emailc tail).
  { destruct tail as [|c tail]; [exact I|]. cbn. destruct Ht as [[-> | ->]| ->]; reflexivity. }
  apply (mb_command _ _ _ _ e); auto; try (now constructor).
  intros q [-> | ->]; split.
  1,3: apply bpath_complete; auto; now constructor.
  1,2: apply mail_from_complete; auto; constructor; now constructor.
Qed.
Print Assumptions C21_brackets_optional.
Example C21_example : route_text (s2b "@a.example,@[127.0.0.1]:") /\ email_text (s2b "x@y") (Email (s2b "x") (Some (Host (s2b "y")))).
Proof.
  split; [|apply C19_email_grammar; vm_compute; reflexivity].
  exists [s2b "@a.example"; s2b "@[127.0.0.1]"]. split; [|reflexivity].
  constructor; [|constructor; [|constructor]].
  - exists (s2b "a.example"), (Host (s2b "a.example")). split; [reflexivity|].
    apply domain_parse_iff. vm_compute. reflexivity.
  - exists (s2b "[127.0.0.1]"), (Addr4 (127, 0, 0, 1)%N). split; [reflexivity|].
    apply domain_parse_iff. vm_compute. reflexivity.
Qed.

(** ** C22 *)
Theorem C22_last_value_wins : forall v w t e p l w2,
  blanks w -> maybe_bracketed_text t e -> param_list_text p l -> blanks w2 ->
  (same_ci v (s2b "MAIL FROM:") ->
     exists m, command_parse (v ++ w ++ t ++ p ++ w2 ++ CRLF) = POk (Mail (Some e) m)
               /\ forall k, params_get k m = last_value k l)
  /\ (same_ci v (s2b "MAIL FROM:") ->
     exists m, command_parse (v ++ w ++ s2b "<>" ++ p ++ w2 ++ CRLF) = POk (Mail None m)
               /\ forall k, params_get k m = last_value k l)
  /\ (same_ci v (s2b "RCPT TO:") ->
     exists m, command_parse (v ++ w ++ t ++ p ++ w2 ++ CRLF) = POk (Rcpt e m)
               /\ forall k, params_get k m = last_value k l).
Proof.
  intros v w t e p l w2 Hw Ht Hp Hw2. pose proof (collect_last_wins l) as Hl.
  repeat split; intros Hv.
  - destruct (command_parse_complete _ _ (CT_mail v w t e p l _ w2 Hv Hw Ht Hp Hl Hw2)) as (c & E & Hc).
    inversion Hc; subst; eexists; (split; [exact E|]); intros k; rewrite <- (proj2 Hl k); auto.
  - destruct (command_parse_complete _ _ (CT_mail_null v w p l _ w2 Hv Hw Hp Hl Hw2)) as (c & E & Hc).
    inversion Hc; subst; eexists; (split; [exact E|]); intros k; rewrite <- (proj2 Hl k); auto.
  - destruct (command_parse_complete _ _ (CT_rcpt v w t e p l _ w2 Hv Hw Ht Hp Hl Hw2)) as (c & E & Hc).
    inversion Hc; subst; eexists; (split; [exact E|]); intros k; rewrite <- (proj2 Hl k); auto.
Qed.
Print Assumptions C22_last_value_wins.
Theorem C22_send_order_irrelevant : forall from m m', wf_command (Mail from m) -> Permutation m m' ->
  exists m'', command_parse (command_send (Mail from m')) = POk (Mail from m'') /\ params_eq m m''.
Proof.
  intros f m m' H P. destruct (proj1 (C15_round_trip_any_order f (Email [] None) m m' P) H) as (c & E & Hc).
  inversion Hc; subst; eexists; (split; [exact E|]); auto; intros k; auto.
Qed.
Print Assumptions C22_send_order_irrelevant.
Example C22_example :
  param_list_text (s2b " SIZE=10	BODY=8BITMIME SIZE=20")
    [(s2b "SIZE", Some (s2b "10")); (s2b "BODY", Some (s2b "8BITMIME")); (s2b "SIZE", Some (s2b "20"))]
  /\ last_value (s2b "SIZE") [(s2b "SIZE", Some (s2b "10")); (s2b "BODY", Some (s2b "8BITMIME")); (s2b "SIZE", Some (s2b "20"))]
     = Some (Some (s2b "20")).
Proof.
  split; [|vm_compute; reflexivity].
  exists [s2b " SIZE=10"; s2b "	BODY=8BITMIME"; s2b " SIZE=20"]. split; [|reflexivity].
  assert (Hk : forall k, forallb (fun c => mem c alnumdash) k = true ->
     match k with c :: _ => mem c alnum | [] => false end = true -> label_text k).
  { intros [|c k] H1 H2; [discriminate|]. apply label_text_iff. exists c, k. split; [reflexivity|]. cbn in H1.
    apply andb_true_iff in H1. split; [now apply mem_In|]. apply over_set_mem, Forall_forall.
    rewrite forallb_forall in H1. apply H1. }
  assert (Hv : forall v, forallb (fun c => mem c graph_except_equ) v = true -> Forall value_char v).
  { intros v H. apply over_gee, over_set_mem, Forall_forall. now rewrite forallb_forall in H. }
  repeat constructor.
  - apply (PmT_value [SP] (s2b "SIZE") (s2b "10")); try discriminate; try (now apply Hk); try (now apply Hv).
    repeat constructor.
  - apply (PmT_value [TAB] (s2b "BODY") (s2b "8BITMIME")); try discriminate; try (now apply Hk); try (now apply Hv).
    constructor; [right; now left|constructor].
  - apply (PmT_value [SP] (s2b "SIZE") (s2b "20")); try discriminate; try (now apply Hk); try (now apply Hv).
    repeat constructor.
Qed.

(** ** C23 *)
Theorem C23_domain_grammar : forall b d, domain_parse b = POk d <-> domain_text b d.
Proof. exact domain_parse_iff. Qed.
Print Assumptions C23_domain_grammar.
Theorem C23_domain_round_trip : forall d, wf_domain d -> domain_parse (domain_send d) = POk d.
Proof. intros d H. apply domain_parse_iff. now apply domain_send_text. Qed.
Print Assumptions C23_domain_round_trip.
Theorem C23_parsed_domain_resend : forall b d, domain_parse b = POk d -> domain_parse (domain_send d) = POk d.
Proof.
  intros b d H. apply C23_domain_round_trip. apply domain_parse_iff in H. eapply domain_text_wf; eauto.
Qed.
Print Assumptions C23_parsed_domain_resend.
Example C23_example : domain_text (s2b "0.foo-1.example") (Host (s2b "0.foo-1.example"))
  /\ domain_parse (s2b "-foo") = PParseError /\ domain_parse (s2b "foo..bar") = PDidNotConsumeEverything 5.
Proof. repeat split; try (vm_compute; reflexivity). apply C23_domain_grammar. vm_compute. reflexivity. Qed.

(** ** C24 *)
Theorem C24_ipv4_literals_round_trip : forall a, wf_ipv4 a ->
  domain_parse (domain_send (Addr4 a)) = POk (Addr4 a).
Proof. intros a H. now apply C23_domain_round_trip. Qed.
Print Assumptions C24_ipv4_literals_round_trip.
Theorem C24_ipv6_literals_round_trip : forall a, wf_ipv6 a ->
  domain_parse (domain_send (Addr6 a)) = POk (Addr6 a).
Proof. intros a H. now apply C23_domain_round_trip. Qed.
Print Assumptions C24_ipv6_literals_round_trip.
(** The five shapes of the textual form all occur. *)
Example C24_example :
  map show_ipv6 [ [0;0;0;0;0;0;0;0]; [0;0;0;0;0;0;0;1]; [0;0;0;0;0;0;258;772]; [0;0;0;0;0;65535;258;772];
                  [8193;0;0;1;0;0;0;15]; [1;2;3;4;5;6;7;0] ]%N
  = [s2b "::"; s2b "::1"; s2b "::1.2.3.4"; s2b "::ffff:1.2.3.4"; s2b "2001:0:0:1::f"; s2b "1:2:3:4:5:6:7:0"].
Proof. vm_compute. reflexivity. Qed.
