(** C58: the command and reply lines of RFC 5321 are understood. *)
From Verif Require Import Bytes Nom Ip Message Reply SpecData SpecGrammar SpecRfc GrammarProofs RoundTrip PropGrammar
  SpecReply ReplyProofs PropReply SpecIp IpProofs IpText.

Lemma rfc_domain_host s : rfc_domain s -> host_text s.
Proof.
  intros (l & Hl & H & ->). exists l. split; [exact Hl|]. split; [|reflexivity].
  apply (Forall_impl _) with (2 := H). intros x (Hx & (c & s' & -> & Hc) & _). exists c, s'.
  split; [reflexivity|]. split; [exact Hc|]. now inversion Hx.
Qed.
Lemma intercalate_last sep ts s : ts <> [] -> intercalate sep (ts ++ [s]) = intercalate sep ts ++ sep ++ s.
Proof.
  induction ts as [|t ts IH]; intros H; [congruence|]. destruct ts as [|t' ts]; [reflexivity|].
  change (intercalate sep ((t :: t' :: ts) ++ [s])) with (t ++ sep ++ intercalate sep ((t' :: ts) ++ [s])).
  change (intercalate sep (t :: t' :: ts)) with (t ++ sep ++ intercalate sep (t' :: ts)).
  rewrite IH by discriminate. now rewrite <- !app_assoc.
Qed.
Lemma rfc_ipv6_text s a : rfc_ipv6 s a -> ipv6_text s a.
Proof.
  intros H. destruct H as [ts gs H L|ts hs ts' gs H H' L|ts gs s a b c d H L V|ts hs ts' gs s a b c d H H' L V].
  - apply i6_full; [now apply gt_groups|exact L].
  - apply i6_zeros; [exact H|now apply gt_groups|lia].
  - apply i6_full; [|rewrite app_length; cbn; lia].
    rewrite <- intercalate_last; [now apply gt_ipv4|]. intros ->. inversion H; subst. discriminate.
  - replace (6 - (length hs + length gs)) with (8 - (length hs + length (gs ++ [a * 256 + b; c * 256 + d]%N)))
      by (rewrite app_length; cbn [length]; lia).
    apply i6_zeros; [exact H|now apply gt_ipv4|rewrite app_length; cbn [length]; lia].
Qed.
Lemma literal_text s d : domain_or_literal s d -> domain_text s d.
Proof.
  intros [[H ->]|[x a H|x a H]]; [apply DT_host, rfc_domain_host, H|now apply DT_v4|apply DT_v6, rfc_ipv6_text, H].
Qed.
Lemma local_part_text s : local_part s -> local_text s.
Proof. intros [(l & H1 & H2 & ->)|H]; [right; exists l; auto|left; exact H]. Qed.
Lemma mailbox_text s e : mailbox s e -> email_text s e.
Proof. intros []. apply ET_at; [now apply local_part_text|now apply literal_text]. Qed.
Lemma path_bracketed s e : path s e -> maybe_bracketed_text s e.
Proof.
  intros [t e' H|hops t e' Hn H M].
  - apply BT_bracketed, PT_plain, mailbox_text, H.
  - rewrite !app_assoc, <- (app_assoc (s2b "<")), <- (app_assoc (s2b "<") _ t), <- (app_assoc (s2b "<")).
    apply BT_bracketed, PT_route; [|now apply mailbox_text].
    exists (map (fun h => s2b "@" ++ h) hops). split; [|reflexivity].
    apply Forall_map. apply (Forall_impl _) with (2 := H). intros h Hh.
    exists h, (Host h). split; [reflexivity|]. apply DT_host, rfc_domain_host, Hh.
Qed.
Lemma parameters_text s m : mail_parameters s m -> param_list_text s m /\ last_wins m m.
Proof.
  intros (ps & H & N & ->). split.
  - exists (map (fun p => s2b " " ++ p) ps). split; [|reflexivity]. clear N.
    induction H as [|p kv ps m H F IH]; [constructor|]. cbn [map]. constructor; [|exact IH].
    assert (blanks (s2b " ")) as Hb by (repeat constructor).
    destruct H as [k K|k v K V1 V2]; [apply PmT_key|apply PmT_value]; auto; discriminate.
  - now apply nodup_last_wins.
Qed.
Lemma sp_blanks : blanks (s2b " ").
Proof. repeat constructor. Qed.
Lemma not_crlf s : Forall (fun c => c <> CR) s -> is_line s.
Proof.
  intros H (u & v & ->). apply Forall_app in H. destruct H as [_ H]. inversion H. congruence.
Qed.
Lemma let_dig_cr c : let_dig c -> c <> CR.
Proof. unfold let_dig, letter, CR. lia. Qed.
Lemma atom_char_cr c : atom_char c -> c <> CR /\ c <> SP /\ c <> TAB.
Proof.
  intros [H|H].
  - unfold let_dig, letter, CR, SP, TAB in *. lia.
  - assert (X : Forall (fun c => c <> CR /\ c <> SP /\ c <> TAB) (s2b "!#$%&'*+-/=?^_`{|}~")).
    { vm_compute. repeat constructor; discriminate. }
    rewrite Forall_forall in X. now apply X.
Qed.
Lemma string_line s : rfc_string s -> is_line s.
Proof.
  intros [[_ H]|(us & H & ->)]; apply not_crlf.
  - apply (Forall_impl _) with (2 := H). intros c Hc. now apply atom_char_cr in Hc.
  - apply Forall_app. split; [constructor; [discriminate|constructor]|]. apply Forall_app.
    split; [|constructor; [discriminate|constructor]].
    induction H as [|u us Hu H IH]; [constructor|]. cbn [concat]. apply Forall_app. split; [|exact IH].
    destruct Hu as [c Hc _ _|c Hc]; unfold SpecGrammar.printable in Hc; repeat constructor; try discriminate; unfold CR; lia.
Qed.

(** Every command line of the RFC is parsed, as what it means. *)
Theorem C58_commands_understood : forall line c, rfc_command line c ->
  exists c', command_parse line = POk c' /\ command_eq c c'.
Proof.
  intros line c H. apply C13_accepts_all_the_grammar. destruct H.
  - apply (CT_ehlo [] v (s2b " ") t d w); auto using sp_blanks, literal_text; constructor.
  - apply (CT_helo [] v (s2b " ") t (Host t) w); auto using sp_blanks, rfc_domain_host, DT_host; constructor.
  - destruct (parameters_text _ _ H1) as [P L]. destruct H0 as [|s e Hp].
    + apply (CT_mail_null v [] p m m w); auto; constructor.
    + apply (CT_mail v [] s e p m m w); auto using path_bracketed; constructor.
  - destruct (parameters_text _ _ H1) as [P L]. destruct H0 as [s Hs|s e Hp].
    + apply (CT_rcpt v [] (s2b "<" ++ s ++ s2b ">") (Email s None) p m m w); auto; try constructor.
      apply PT_plain, ET_local. right. exists [s]. split; [discriminate|]. split; [|reflexivity].
      constructor; [|constructor]. clear -Hs. unfold ci, same_ci in Hs.
      assert (L : length s = 10) by (apply (f_equal (@length _)) in Hs; now rewrite !map_length in Hs).
      split; [intros ->; discriminate|]. apply Forall_forall. intros x Hx. left. left.
      apply (in_map upper) in Hx. rewrite Hs in Hx. clear Hs L.
      assert (X : Forall (fun u => 65 <= u <= 90)%N (map upper (s2b "Postmaster"))).
      { vm_compute. repeat constructor; discriminate. }
      rewrite Forall_forall in X. apply X in Hx. unfold letter, upper in *.
      destruct (N.leb_spec 97 x), (N.leb_spec x 122); cbn [andb] in Hx; lia.
    + apply (CT_rcpt v [] s e p m m w); auto using path_bracketed; constructor.
  - now apply CT_data.
  - now apply CT_rset.
  - now apply CT_quit.
  - apply (CT_vrfy v SP s); auto using string_line. now left.
  - apply (CT_expn v SP s); auto using string_line. now left.
  - apply (CT_help v (s2b " " ++ s) s); auto using string_line. left. exists SP. split; [now left|reflexivity].
  - apply (CT_help v [] []); auto; [right; split; [reflexivity|discriminate]|]. apply not_crlf. constructor.
  - apply (CT_noop v (s2b " " ++ s) s); auto using string_line. left. exists SP. split; [now left|reflexivity].
  - apply (CT_noop v [] []); auto; [right; split; [reflexivity|discriminate]|]. apply not_crlf. constructor.
Qed.
Print Assumptions C58_commands_understood.

(** Every reply line of the RFC is parsed, as what it means. *)
Theorem C58_replies_understood : forall line r, rfc_reply_line line r -> reply_parse line = POk r.
Proof.
  intros line r [a b c last t Ha Hb Hc Ht]. apply C27_reply_parse_exact.
  exists [48 + a; 48 + b; 48 + c]%N. split; [reflexivity|]. split.
  - apply not_crlf. apply (Forall_impl _) with (2 := Ht). unfold CR. intros x Hx. lia.
  - left. exists a, b, c. repeat split; lia.
Qed.
Print Assumptions C58_replies_understood.

(** What the library writes for an address is the RFC's text for it. *)
Lemma hex_group g : (g < 65536)%N -> group_text (show_hex g) g.
Proof.
  intros H. pose proof (read_hex g [] H I) as R. apply read_group_sound in R. destruct R as (t & E & G).
  rewrite !app_nil_r in E. now rewrite E.
Qed.
Lemma hexes gs : Forall (fun g => g < 65536)%N gs -> hex_groups (map show_hex gs) gs.
Proof. induction 1; constructor; auto using hex_group. Qed.
Lemma show_groups_text gs : show_groups gs = intercalate (s2b ":") (map show_hex gs).
Proof.
  induction gs as [|g [|g' gs] IH]; [reflexivity|reflexivity|].
  change (show_groups (g :: g' :: gs)) with (show_hex g ++ [58%N] ++ show_groups (g' :: gs)).
  rewrite IH. reflexivity.
Qed.
Lemma show_v4_text a : wf_ipv4 a -> ipv4_text (show_ipv4 a) a.
Proof. intros H. now apply ipv4_parses_text, ipv4_round_trip. Qed.
Lemma v4_tail_text g h : (g < 65536)%N -> (h < 65536)%N ->
  ipv4_text (show_v4_tail g h) (g / 256, g mod 256, h / 256, h mod 256)%N.
Proof.
  intros Hg Hh. apply show_v4_text. unfold wf_ipv4.
  repeat split; try (apply N.mod_lt; discriminate); apply N.div_lt_upper_bound; lia.
Qed.
Lemma byte_pair g : (g / 256 * 256 + g mod 256 = g)%N.
Proof. rewrite N.mul_comm. symmetry. now apply N.div_mod. Qed.
Lemma show_v6_text a : wf_ipv6 a -> rfc_ipv6 (show_ipv6 a) a.
Proof.
  intros [Hlen Hw]. unfold show_ipv6.
  assert (Hnth : forall k, k < 8 -> (nth k a 0 < 65536)%N).
  { intros k Hk. rewrite Forall_forall in Hw. apply Hw, nth_In. lia. }
  assert (Hg := Hnth 6 ltac:(lia)). assert (Hh := Hnth 7 ltac:(lia)).
  remember (nth 6 a 0%N) as g eqn:Eg. remember (nth 7 a 0%N) as h eqn:Eh.
  destruct (forallb (N.eqb 0) (firstn 6 a)) eqn:Z6; cbn [andb].
  - assert (Ha : a = repeat 0%N 6 ++ [g; h]).
    { apply zeros_firstn in Z6; [|lia]. rewrite <- (firstn_skipn 6 a), Z6 at 1. f_equal.
      rewrite Eg, Eh. clear -Hlen. do 9 (destruct a as [|? a]; try discriminate). reflexivity. }
    clear Z6 Hw Hnth Eg Eh. subst a.
    destruct ((g =? 0)%N && (h =? 0)%N) eqn:E0.
    { apply andb_true_iff in E0. destruct E0 as [E1 E2]. apply N.eqb_eq in E1, E2. subst g h.
      apply (r6_comp [] [] [] []); try constructor. cbn. lia. }
    destruct ((g =? 0)%N && (h =? 1)%N) eqn:E1.
    { apply andb_true_iff in E1. destruct E1 as [E1 E2]. apply N.eqb_eq in E1, E2. subst g h.
      apply (r6_comp [] [] [show_hex 1] [1%N]); [constructor|apply (hexes [1%N])|cbn; lia].
      repeat constructor. }
    pose proof (r6_v4_comp [] [] [] [] _ _ _ _ _ (Forall2_nil _) (Forall2_nil _) ltac:(cbn; lia) (v4_tail_text g h Hg Hh)) as P.
    cbn [length plus repeat Nat.sub app] in P. rewrite !byte_pair in P. exact P.
  - destruct (forallb (N.eqb 0) (firstn 5 a) && (nth 5 a 0 =? 65535)%N) eqn:Z5.
    + apply andb_true_iff in Z5. destruct Z5 as [Z5 E5]. apply N.eqb_eq in E5.
      apply zeros_firstn in Z5; [|lia].
      assert (Ha : a = repeat 0%N 5 ++ [65535%N; g; h]).
      { rewrite <- (firstn_skipn 5 a), Z5 at 1. f_equal. rewrite Eg, Eh, <- E5.
        clear -Hlen. do 9 (destruct a as [|? a]; try discriminate). reflexivity. }
      assert (F : hex_groups [s2b "ffff"] [65535%N]).
      { apply (hexes [65535%N]). repeat constructor. }
      pose proof (r6_v4_comp [] [] _ _ _ _ _ _ _ (Forall2_nil _) F ltac:(cbn; lia) (v4_tail_text g h Hg Hh)) as P.
      cbn [length plus repeat Nat.sub app] in P. rewrite !byte_pair in P. rewrite Ha. exact P.
    + pose proof (find_zero_slice_ok a) as Hz. destruct (find_zero_slice a) as [za zl].
      destruct Hz as [Hz1 Hz2]. destruct (Nat.ltb_spec 1 zl) as [Hzl|Hzl].
      * set (hd := firstn za a). set (tl := skipn (za + zl) a).
        assert (Lh : length hd = za) by (unfold hd; rewrite firstn_length; lia).
        assert (Lt : length tl = 8 - (za + zl)) by (unfold tl; rewrite skipn_length; lia).
        assert (Ha : a = hd ++ repeat 0%N (8 - (length hd + length tl)) ++ tl).
        { replace (8 - (length hd + length tl)) with zl by lia.
          unfold hd, tl. rewrite <- Hz2. rewrite <- (firstn_skipn za a) at 1. f_equal.
          rewrite <- (firstn_skipn zl (skipn za a)) at 1. f_equal. symmetry. apply skipn_add. }
        rewrite Ha at 1. rewrite !show_groups_text.
        apply r6_comp; [apply hexes|apply hexes|lia].
        -- rewrite Ha in Hw. apply Forall_app in Hw. apply Hw.
        -- rewrite Ha in Hw. rewrite !Forall_app in Hw. apply Hw.
      * rewrite show_groups_text. apply r6_full; [now apply hexes|exact Hlen].
Qed.

(** A command the RFC can express is sent as a line of the RFC with that meaning
    (for [HELP] and [NOOP] without argument see below). *)
Lemma sent_domain t d : domain_or_literal t d -> domain_or_literal (domain_send d) d.
Proof.
  intros [[H ->]|[x a H|x a H]]; [left; split; [exact H|reflexivity]|right; apply al_v4|right; apply al_v6].
  - apply ipv4_parses_text in H. now apply show_v4_text, ipv4_from_str_wf with x.
  - apply rfc_ipv6_text, ipv6_parses_text in H. now apply show_v6_text, ipv6_from_str_wf with x.
Qed.
Lemma sent_mailbox s e : mailbox s e -> mailbox (email_send e) e.
Proof. intros [l t d L D]. unfold email_send. cbn [em_localpart em_hostname]. apply mb; [exact L|now apply sent_domain with t]. Qed.
Lemma sent_path s e : path s e -> path (s2b "<" ++ email_send e ++ s2b ">") e.
Proof. intros [t e' M|h t e' _ _ M]; apply pa_plain, sent_mailbox with t, M. Qed.
Lemma sent_params s m : mail_parameters s m -> s = params_send m.
Proof.
  intros (ps & F & _ & ->). induction F as [|p kv ps m H F IH]; [reflexivity|].
  cbn [map concat]. rewrite IH. destruct H as [k K|k v K V1 V2]; cbn [params_send]; now rewrite <- !app_assoc.
Qed.
Theorem C58_sent_as_rfc_lines : forall line c, rfc_command line c -> c <> Help [] -> c <> Noop [] ->
  rfc_command (command_send c) c.
Proof.
  intros line c H N1 N2. assert (CI : forall w, ci w w) by reflexivity. assert (B : blanks []) by constructor.
  destruct H; cbn [command_send]; try congruence.
  - apply (rfc_ehlo (s2b "EHLO") (domain_send d) d []); auto. now apply sent_domain with t.
  - apply (rfc_helo (s2b "HELO") t []); auto.
  - rewrite <- (sent_params p m) by assumption.
    replace (s2b "MAIL FROM:<" ++ opt_email_send f ++ s2b ">" ++ p ++ CRLF)
      with (s2b "MAIL FROM:" ++ (s2b "<" ++ opt_email_send f ++ s2b ">") ++ p ++ [] ++ CRLF)
      by (rewrite <- !app_assoc; reflexivity).
    apply rfc_mail; auto. destruct H0 as [|s e P]; [apply rp_null|]. apply rp_path, sent_path with s, P.
  - rewrite <- (sent_params p m) by assumption.
    replace (s2b "RCPT TO:<" ++ email_send e ++ s2b ">" ++ p ++ CRLF)
      with (s2b "RCPT TO:" ++ (s2b "<" ++ email_send e ++ s2b ">") ++ p ++ [] ++ CRLF)
      by (rewrite <- !app_assoc; reflexivity).
    apply rfc_rcpt; auto. destruct H0 as [s S|s e P]; [|apply rc_path, sent_path with s, P].
    unfold email_send. cbn [em_localpart em_hostname]. rewrite app_nil_r. now apply rc_postmaster.
  - apply (rfc_data (s2b "DATA") []); auto.
  - apply (rfc_rset (s2b "RSET") []); auto.
  - apply (rfc_quit (s2b "QUIT") []); auto.
  - apply (rfc_vrfy (s2b "VRFY")); auto.
  - apply (rfc_expn (s2b "EXPN")); auto.
  - apply (rfc_help (s2b "HELP")); auto.
  - apply (rfc_noop (s2b "NOOP")); auto.
Qed.
Print Assumptions C58_sent_as_rfc_lines.

(** A reply that can be built and whose code the RFC knows is sent as a line of
    the RFC. *)
Theorem C58_replies_sent_as_rfc_lines : forall a b c last text r,
  (2 <= a <= 5)%N -> (b <= 5)%N -> (c <= 9)%N ->
  reply_build (100 * a + 10 * b + c) last text = inl r ->
  rfc_reply_line (reply_send r) r /\ r = ReplyLine (100 * a + 10 * b + c) last text.
Proof.
  intros a b c last text r Ha Hb Hc B. apply build_inl in B. destruct B as (_ & Hp & ->). split; [|reflexivity].
  destruct (reply_send_wire (100 * a + 10 * b + c) last text ltac:(lia)) as (ds & (a' & b' & c' & A & B & C & E & ->) & ->).
  assert (a' = a /\ b' = b /\ c' = c) as (-> & -> & ->) by lia. now apply rfc_rl.
Qed.
Print Assumptions C58_replies_sent_as_rfc_lines.

(** What was left out of the RFC's grammar is refused or sent otherwise: the tag
    of a literal in lower case, general literals, a reply line with neither text
    nor space; [HELP] and [NOOP] get a space even without argument. *)
Theorem C58_left_out :
  (forall c, command_parse (s2b "EHLO [ipv6:::1]" ++ CRLF) <> POk c)
  /\ (forall c, command_parse (s2b "EHLO [x400:c=us]" ++ CRLF) <> POk c)
  /\ (forall r, reply_parse (s2b "250" ++ CRLF) <> POk r)
  /\ command_send (Help []) = s2b "HELP " ++ CRLF /\ command_send (Noop []) = s2b "NOOP " ++ CRLF.
Proof. repeat split; intros; vm_compute; congruence. Qed.
Print Assumptions C58_left_out.

(** A command with a route, a quoted local part, a literal and a parameter. *)
Definition ex_line : bytes :=
  s2b "mail From:<@a-1.b,@c:" ++ [QUOTE] ++ s2b "x y" ++ [BACKSLASH; QUOTE; QUOTE] ++ s2b "@[IPv6:2001:db8::1]> SIZE=10 X  " ++ CRLF.
Definition ex_mail : command :=
  Mail (Some (Email ([QUOTE] ++ s2b "x y" ++ [BACKSLASH; QUOTE; QUOTE]) (Some (Addr6 [8193; 3512; 0; 0; 0; 0; 0; 1]%N))))
       [(s2b "SIZE", Some (s2b "10")); (s2b "X", None)].
Ltac chars := repeat (apply Forall_cons || apply Forall_nil); unfold let_dig, letter, value_char, SpecGrammar.printable, atom_char in *; cbn [N_of_ascii N_of_digits]; try lia.
Ltac is_sub := repeat split; [chars|eexists _, _; split; [reflexivity|chars]|match goal with |- exists s' c, ?s = _ /\ _ => exists (removelast s), (last s 0%N) end; split; [reflexivity|unfold let_dig, letter; cbn; lia]].
Lemma ex_rfc : rfc_command ex_line ex_mail.
Proof.
  assert (D1 : sub_domain (s2b "a-1")) by is_sub.
  assert (D2 : sub_domain (s2b "b")) by is_sub.
  assert (D3 : sub_domain (s2b "c")) by is_sub.
  pose proof (rfc_mail (s2b "mail From:")
    (s2b "<" ++ intercalate (s2b ",") (map (fun h => s2b "@" ++ h) [s2b "a-1.b"; s2b "c"]) ++ s2b ":"
       ++ (([QUOTE] ++ s2b "x y" ++ [BACKSLASH; QUOTE; QUOTE]) ++ s2b "@" ++ (s2b "[IPv6:" ++ s2b "2001:db8::1" ++ s2b "]")) ++ s2b ">")
    (Some (Email ([QUOTE] ++ s2b "x y" ++ [BACKSLASH; QUOTE; QUOTE]) (Some (Addr6 [8193; 3512; 0; 0; 0; 0; 0; 1]%N))))
    (concat (map (fun p => s2b " " ++ p) [s2b "SIZE" ++ s2b "=" ++ s2b "10"; s2b "X"]))
    [(s2b "SIZE", Some (s2b "10")); (s2b "X", None)] (s2b "  ")) as P.
  assert (P' : rfc_command ex_line ex_mail); [|exact P']. apply P; clear P.
  - reflexivity.
  - apply rp_path, pa_route; [discriminate| |apply mb].
    + repeat constructor; [exists [s2b "a-1"; s2b "b"]|exists [s2b "c"]]; (split; [discriminate|]; split; [auto|reflexivity]).
    + right. exists [s2b "x"; s2b " "; s2b "y"; [BACKSLASH; QUOTE]]. split; [|reflexivity].
      repeat constructor; try discriminate; unfold SpecGrammar.printable, QUOTE; lia.
    + right. apply al_v6. apply (r6_comp [s2b "2001"; s2b "db8"] [8193; 3512]%N [s2b "1"] [1%N]); [| |cbn; lia].
      * apply (hexes [8193; 3512]%N). repeat constructor.
      * apply (hexes [1]%N). repeat constructor.
  - eexists. split; [|split; [|reflexivity]].
    + repeat constructor; try discriminate; try (eexists _, _; split; [reflexivity|]; split); chars; repeat split; try discriminate.
    + apply NoDup_cons; [intros [X|[]]; discriminate|]. apply NoDup_cons; [intros []|apply NoDup_nil].
  - repeat constructor.
Qed.
Example C58_example : rfc_command ex_line ex_mail /\ command_parse ex_line = POk ex_mail
  /\ command_send ex_mail = s2b "MAIL FROM:<" ++ [QUOTE] ++ s2b "x y" ++ [BACKSLASH; QUOTE; QUOTE]
                              ++ s2b "@[IPv6:2001:db8::1]> SIZE=10 X" ++ CRLF
  /\ rfc_reply_line (s2b "250-ok" ++ CRLF) (ReplyLine 250 false (s2b "ok")).
Proof.
  split; [exact ex_rfc|]. split; [vm_compute; reflexivity|]. split; [vm_compute; reflexivity|].
  apply (rfc_rl 2 5 0 false (s2b "ok")); try lia. chars.
Qed.
