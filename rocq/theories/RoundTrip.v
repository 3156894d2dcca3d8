(** Values survive sending and parsing; parsed values are well formed. *)
From Coq Require Import Permutation.
From Verif Require Import Bytes Nom Ip Message SpecData SpecGrammar DataLines NomLemmas IpProofs IpText
  GrammarProofs CommandProofs StreamProofs.

(** ** No CR or LF *)
Definition clean (s : bytes) : Prop := Forall (fun c => c <> CR /\ c <> LF) s.
Lemma clean_app a b : clean a -> clean b -> clean (a ++ b).
Proof. intros. now apply Forall_app. Qed.
Lemma clean_line s : clean s -> is_line s.
Proof.
  intros H (u & v & ->). unfold clean in H. rewrite !Forall_app in H. destruct H as (_ & H & _).
  inversion H as [|? ? [C _] _]; subst. congruence.
Qed.
Lemma over_set_clean set s : mem CR set = false -> mem LF set = false -> over_set set s -> clean s.
Proof.
  intros H1 H2. apply Forall_impl. intros c Hc. split; eapply in_neq; eauto.
Qed.
Lemma clean_lit l : forallb (fun c => negb (c =? CR)%N && negb (c =? LF)%N) l = true -> clean l.
Proof.
  intros H. rewrite forallb_forall in H. apply Forall_forall. intros c Hc. specialize (H c Hc).
  apply andb_true_iff in H. destruct H as [H1 H2]. apply negb_true_iff, N.eqb_neq in H1, H2. auto.
Qed.
Lemma addr_text_clean s : addr_text s -> clean s.
Proof.
  intros H. apply Forall_forall. intros c Hc. split; intros ->; revert Hc; now apply addr_text_not.
Qed.

(** ** Domains *)
Lemma domain_send_text d : wf_domain d -> domain_text (domain_send d) d.
Proof.
  destruct d as [s|a|a]; intros H; cbn [domain_send wf_domain] in *.
  - now constructor.
  - constructor. apply ipv4_parses_text. now apply ipv4_round_trip.
  - constructor. apply ipv6_parses_text. now apply ipv6_round_trip.
Qed.
Lemma domain_text_wf s d : domain_text s d -> wf_domain d.
Proof.
  intros [t Ht|x a Ha|x a Ha]; cbn; [exact Ht| |].
  - apply ipv6_parses_text in Ha. eapply ipv6_from_str_wf; eauto.
  - apply ipv4_parses_text in Ha. eapply ipv4_from_str_wf; eauto.
Qed.
Lemma domain_send_clean d : wf_domain d -> clean (domain_send d).
Proof.
  destruct d as [s|a|a]; intros H; cbn [domain_send wf_domain] in *.
  - apply (over_set_clean hostset); try reflexivity. now apply host_text_set.
  - apply clean_app; [now apply clean_lit|]. apply clean_app; [|now apply clean_lit].
    apply addr_text_clean. now apply show_ipv4_chars.
  - apply clean_app; [now apply clean_lit|]. apply clean_app; [|now apply clean_lit].
    apply addr_text_clean. now apply show_ipv6_chars.
Qed.
Lemma domain_parse_iff b d : domain_parse b = POk d <-> domain_text b d.
Proof.
  unfold domain_parse. rewrite nom_to_result_Ok. split; intros H.
  - apply hostname_sound in H. destruct H as (s & -> & H). now rewrite app_nil_r.
  - rewrite <- (app_nil_r b). apply hostname_complete; [exact H|exact I].
Qed.

(** ** Addresses *)
Lemma email_send_text e : wf_email e -> email_text (email_send e) e.
Proof.
  destruct e as [l [d|]]; intros [Hl Hd]; unfold email_send; cbn [em_localpart em_hostname] in *.
  - constructor; [exact Hl|now apply domain_send_text].
  - rewrite app_nil_r. now constructor.
Qed.
Lemma email_text_wf s e : email_text s e -> wf_email e.
Proof.
  intros [l Hl|l t d Hl Ht]; split; cbn; auto. eapply domain_text_wf; eauto.
Qed.
Lemma local_text_clean l : local_text l -> clean l.
Proof.
  intros [(us & Hus & ->)|H].
  - apply clean_app; [now apply clean_lit|]. apply clean_app; [|now apply clean_lit].
    induction Hus as [|u us Hu Hus IH]; [constructor|]. cbn. apply clean_app; [|exact IH].
    destruct Hu as [c Hc _ _|c Hc]; apply printable_not_crlf in Hc; repeat constructor; try apply Hc; discriminate.
  - apply (over_set_clean atomset); try reflexivity. now apply dot_string_set.
Qed.
Lemma email_send_clean e : wf_email e -> clean (email_send e).
Proof.
  destruct e as [l [d|]]; intros [Hl Hd]; unfold email_send; cbn [em_localpart em_hostname] in *.
  - apply clean_app; [now apply local_text_clean|]. apply clean_app; [now apply clean_lit|].
    now apply domain_send_clean.
  - apply clean_app; [now apply local_text_clean|constructor].
Qed.
Lemma email_parse_iff b e : email_parse b = POk e <-> email_text b e.
Proof.
  unfold email_parse. rewrite nom_to_result_Ok. split; intros H.
  - apply email_sound in H. destruct H as (s & -> & H). now rewrite app_nil_r.
  - rewrite <- (app_nil_r b). apply email_complete; [exact H|exact I].
Qed.
Lemma path_text_wf s e : path_text s e -> wf_email e.
Proof. intros [s' e' H|r s' e' Hr H]; eapply email_text_wf; eauto. Qed.
Lemma bpath_text_wf s e : maybe_bracketed_text s e -> wf_email e.
Proof. intros [s' e' H|s' e' H]; eapply path_text_wf; eauto. Qed.

(** ** Parameters *)
Lemma params_send_text m : wf_params m -> param_list_text (params_send m) m.
Proof.
  intros [_ H]. induction H as [|(k, v) m [Hk Hv] Hm (ss & Hss & IH)].
  - exists []. split; [constructor|reflexivity].
  - cbn [params_send fst snd] in *. destruct v as [v|].
    + exists ((s2b " " ++ k ++ s2b "=" ++ v) :: ss). split.
      * constructor; [|exact Hss]. constructor; try tauto; [discriminate|].
        constructor; [now left|constructor].
      * cbn [concat]. rewrite IH, <- !app_assoc. reflexivity.
    + exists ((s2b " " ++ k) :: ss). split.
      * constructor; [|exact Hss]. constructor; auto; [discriminate|].
        constructor; [now left|constructor].
      * cbn [concat]. rewrite IH, <- !app_assoc. reflexivity.
Qed.
Lemma last_value_notin k (m : parameters) : ~ In k (map fst m) -> last_value k m = None.
Proof.
  induction m as [|(k', v) m IH]; [reflexivity|]. cbn [map fst In last_value]. intros H.
  rewrite IH by tauto. destruct (beq k k') eqn:E; [|reflexivity]. apply beq_eq in E. subst. tauto.
Qed.
Lemma nodup_last_wins m : NoDup (map fst m) -> last_wins m m.
Proof.
  intros H. split; [exact H|]. intros k. induction m as [|(k', v) m IH]; [reflexivity|].
  cbn [map fst] in H. inversion H as [|? ? H1 H2]; subst. cbn [params_get last_value].
  destruct (beq k k') eqn:E.
  - apply beq_eq in E. subst k'. now rewrite last_value_notin.
  - rewrite <- IH by exact H2. now destruct (params_get k m).
Qed.
Lemma in_params_get m k v : params_get k m = Some v -> In (k, v) m.
Proof.
  induction m as [|(k', v') m IH]; [discriminate|]. cbn [params_get]. destruct (beq k k') eqn:E.
  - intros H. injection H as ->. apply beq_eq in E. subst. now left.
  - intros H. right. auto.
Qed.
Lemma params_get_in m k v : NoDup (map fst m) -> In (k, v) m -> params_get k m = Some v.
Proof.
  induction m as [|(k', v') m IH]; [intros _ []|]. cbn [map fst params_get In]. intros H [E|E].
  - injection E as -> ->. now rewrite beq_refl.
  - inversion H as [|? ? H1 H2]; subst. destruct (beq k k') eqn:E2; [|auto]. apply beq_eq in E2. subst.
    exfalso. apply H1. change k' with (fst (k', v)). now apply in_map.
Qed.
Lemma permutation_params_eq m m' : NoDup (map fst m) -> Permutation m m' -> params_eq m m'.
Proof.
  intros H P k. assert (H' : NoDup (map fst m')).
  { eapply Permutation_NoDup; [|exact H]. now apply Permutation_map. }
  destruct (params_get k m) as [v|] eqn:E.
  - symmetry. apply params_get_in; [exact H'|]. eapply Permutation_in; [exact P|]. now apply in_params_get.
  - destruct (params_get k m') as [v|] eqn:E'; [|reflexivity].
    apply in_params_get in E'. apply Permutation_sym in P. eapply Permutation_in in E'; [|exact P].
    apply params_get_in in E'; [|exact H]. congruence.
Qed.
Lemma permutation_wf_params m m' : wf_params m -> Permutation m m' -> wf_params m'.
Proof.
  intros [H1 H2] P. split.
  - eapply Permutation_NoDup; [|exact H1]. now apply Permutation_map.
  - rewrite Forall_forall in *. intros x Hx. apply H2. eapply Permutation_in; [|exact Hx].
    now apply Permutation_sym.
Qed.
Lemma last_value_in k l v : last_value k l = Some v -> In (k, v) l.
Proof.
  induction l as [|(k', v') l IH]; [discriminate|]. cbn [last_value]. destruct (last_value k l) as [w|] eqn:E.
  - intros H. injection H as ->. right. auto.
  - destruct (beq k k') eqn:E2; [|discriminate]. intros H. injection H as ->. apply beq_eq in E2. subst. now left.
Qed.
Lemma last_wins_wf p l m : param_list_text p l -> last_wins l m -> wf_params m.
Proof.
  intros (ss & Hss & _) [H1 H2]. split; [exact H1|]. apply Forall_forall. intros (k, v) Hin.
  apply params_get_in in Hin; [|exact H1]. rewrite H2 in Hin. apply last_value_in in Hin.
  clear -Hss Hin. induction Hss as [|s x ss xs H Hss IH]; [contradiction|].
  destruct Hin as [->|Hin]; [|auto]. inversion H; subst; cbn; auto.
Qed.
Lemma params_send_clean m : wf_params m -> clean (params_send m).
Proof.
  intros [_ H]. induction H as [|(k, v) m [Hk Hv] Hm IH]; [constructor|].
  cbn [params_send fst snd] in *. apply clean_app; [now apply clean_lit|].
  apply clean_app; [apply (over_set_clean alnumdash); try reflexivity; now apply label_text_set|].
  apply clean_app; [|exact IH]. destruct v as [v|]; [|constructor].
  apply clean_app; [now apply clean_lit|]. apply (over_set_clean graph_except_equ); try reflexivity. now apply over_gee.
Qed.

(** ** Commands *)
Lemma same_ci_refl v : same_ci v v.
Proof. reflexivity. Qed.
Lemma command_send_text c : wf_command c -> command_text (command_send c) c.
Proof.
  assert (Hn : blanks []) by constructor.
  assert (Hb : blank SP) by now left.
  assert (Hs1 : blanks [SP]) by (constructor; [now left|constructor]).
  destruct c as [|d|s|d|s|f m|s| |t m| |s]; intros H; cbn [wf_command command_send] in *.
  - apply (CT_data _ []); auto using same_ci_refl.
  - change (s2b "EHLO " ++ domain_send d ++ CRLF) with ([] ++ s2b "EHLO" ++ [SP] ++ domain_send d ++ [] ++ CRLF).
    apply CT_ehlo; auto using same_ci_refl, domain_send_text.
  - change (s2b "EXPN " ++ s ++ CRLF) with (s2b "EXPN" ++ [SP] ++ s ++ CRLF).
    apply CT_expn; auto using same_ci_refl.
  - change (s2b "HELO " ++ domain_send d ++ CRLF) with ([] ++ s2b "HELO" ++ [SP] ++ domain_send d ++ [] ++ CRLF).
    apply CT_helo; auto using same_ci_refl, domain_send_text.
  - change (s2b "HELP " ++ s ++ CRLF) with (s2b "HELP" ++ (SP :: s) ++ CRLF).
    apply CT_help; auto using same_ci_refl. left. eauto.
  - destruct H as [Hf Hm]. destruct f as [e|]; cbn [opt_email_send].
    + replace (s2b "MAIL FROM:<" ++ email_send e ++ s2b ">" ++ params_send m ++ CRLF)
        with (s2b "MAIL FROM:" ++ [] ++ (s2b "<" ++ email_send e ++ s2b ">") ++ params_send m ++ [] ++ CRLF)
        by (rewrite <- !app_assoc; reflexivity).
      apply (CT_mail _ _ _ _ _ m); auto using same_ci_refl, params_send_text.
      * constructor. constructor. now apply email_send_text.
      * apply nodup_last_wins. apply Hm.
    + change (s2b "MAIL FROM:<" ++ [] ++ s2b ">" ++ params_send m ++ CRLF)
        with (s2b "MAIL FROM:" ++ [] ++ s2b "<>" ++ params_send m ++ [] ++ CRLF).
      apply (CT_mail_null _ _ _ m); auto using same_ci_refl, params_send_text.
      apply nodup_last_wins. apply Hm.
  - change (s2b "NOOP " ++ s ++ CRLF) with (s2b "NOOP" ++ (SP :: s) ++ CRLF).
    apply CT_noop; auto using same_ci_refl. left. eauto.
  - apply (CT_quit _ []); auto using same_ci_refl.
  - destruct H as [Ht Hm].
    replace (s2b "RCPT TO:<" ++ email_send t ++ s2b ">" ++ params_send m ++ CRLF)
      with (s2b "RCPT TO:" ++ [] ++ (s2b "<" ++ email_send t ++ s2b ">") ++ params_send m ++ [] ++ CRLF)
      by (rewrite <- !app_assoc; reflexivity).
    apply (CT_rcpt _ _ _ _ _ m); auto using same_ci_refl, params_send_text.
    + constructor. constructor. now apply email_send_text.
    + apply nodup_last_wins. apply Hm.
  - apply (CT_rset _ []); auto using same_ci_refl.
  - change (s2b "VRFY " ++ s ++ CRLF) with (s2b "VRFY" ++ [SP] ++ s ++ CRLF).
    apply CT_vrfy; auto using same_ci_refl.
Qed.
Lemma command_text_wf b c : command_text b c -> wf_command c.
Proof.
  intros H; destruct H; cbn; auto; try (eapply domain_text_wf; eassumption).
  - split; [eapply bpath_text_wf; eauto|eapply last_wins_wf; eauto].
  - split; [exact I|eapply last_wins_wf; eauto].
  - split; [eapply bpath_text_wf; eauto|eapply last_wins_wf; eauto].
Qed.
Lemma command_parse_sound b c : command_parse b = POk c -> command_text b c.
Proof.
  unfold command_parse. rewrite nom_to_result_Ok. intros H. apply command_sound in H.
  destruct H as (s & -> & H). now rewrite app_nil_r.
Qed.
Lemma command_parse_complete b c : command_text b c ->
  exists c', command_parse b = POk c' /\ command_eq c c'.
Proof.
  intros H. destruct (command_complete b [] c H) as (c' & H1 & H2). exists c'. split; [|exact H2].
  unfold command_parse. rewrite nom_to_result_Ok. now rewrite app_nil_r in H1.
Qed.
Lemma command_eq_trans a b c : command_eq a b -> command_eq b c -> command_eq a c.
Proof.
  intros H1 H2. destruct H1; auto; inversion H2; subst; constructor; auto; intros k; congruence.
Qed.
Lemma command_eq_sym a b : command_eq a b -> command_eq b a.
Proof. intros H. destruct H; constructor; intros k; congruence. Qed.

(** ** One line *)
Lemma one_line_clean s : clean s -> one_line (s ++ CRLF).
Proof. intros H. exists s. split; [now apply clean_line|reflexivity]. Qed.
Lemma prefix_line p s : clean p -> is_line (p ++ s) <-> is_line s.
Proof.
  intros Hp. split; intros H.
  - intros (u & v & ->). apply H. exists (p ++ u), v. now rewrite <- app_assoc.
  - intros (u & v & E). apply H. destruct (app_eq_app _ _ _ _ E) as (l & [[-> El]|[-> El]]).
    + exfalso. unfold clean in Hp. apply Forall_app in Hp. destruct Hp as [_ Hp].
      destruct l as [|c l].
      * apply H. exists [], v. symmetry. exact El.
      * cbn in El. injection El as <- El. inversion Hp as [|? ? [C _] _]; subst. congruence.
    + exists l, v. now rewrite El.
Qed.
Lemma one_line_prefix p s : clean p -> one_line (p ++ s ++ CRLF) <-> is_line s.
Proof.
  intros Hp. rewrite <- (prefix_line p s Hp). split.
  - intros (l & Hl & E). rewrite app_assoc in E. apply app_inv_tail in E. now rewrite E.
  - intros H. exists (p ++ s). split; [exact H|]. now rewrite app_assoc.
Qed.

(** ** Unquoting *)
Lemma unescape_spec l : unescaped l (unescape_scan false l).
Proof.
  assert (H : forall n l, length l < n -> unescaped l (unescape_scan false l)).
  { induction n as [|n IH]; intros k Hk; [lia|]. destruct k as [|c k]; [constructor|].
    cbn [unescape_scan]. destruct (N.eqb_spec c BACKSLASH) as [->|Hc].
    - destruct k as [|d k]; [constructor|]. cbn [unescape_scan]. constructor. apply IH. cbn in Hk. lia.
    - constructor; [exact Hc|]. apply IH. cbn in Hk. lia. }
  apply (H (S (length l))). lia.
Qed.
Lemma unescaped_unique l u : unescaped l u -> u = unescape_scan false l.
Proof.
  induction 1 as [| |c l u Hc H IH|c l u H IH]; [reflexivity|reflexivity| |].
  - cbn. apply N.eqb_neq in Hc. now rewrite Hc, <- IH.
  - cbn. now rewrite <- IH.
Qed.
Lemma unescape_units us : Forall quoted_unit us ->
  unescape_scan false (concat us ++ [QUOTE]) = map (fun u => last u 0%N) us ++ [QUOTE].
Proof.
  induction 1 as [|u us Hu Hus IH]; [reflexivity|]. cbn [concat map]. rewrite <- app_assoc.
  destruct Hu as [c H1 H2 H3|c H1].
  - cbn [app unescape_scan last]. apply N.eqb_neq in H3. now rewrite H3, IH.
  - cbn [app unescape_scan last]. change (BACKSLASH =? BACKSLASH)%N with true. cbn iota. now rewrite IH.
Qed.
Lemma localpart_means l s h : local_means l s -> email_localpart (Email l h) = Some s.
Proof.
  intros [s' H|us H]; unfold email_localpart; cbn [em_localpart].
  - apply dot_string_head in H. destruct H as (c & s2 & -> & Hc).
    assert (E : (c =? QUOTE)%N = false) by (apply N.eqb_neq; neq_set Hc). now rewrite E.
  - cbn [app]. change (QUOTE =? QUOTE)%N with true. cbn [negb].
    rewrite unescape_units by exact H. rewrite rev_app_distr. cbn [rev app].
    change (QUOTE =? QUOTE)%N with true. cbn iota. now rewrite rev_involutive.
Qed.
Lemma local_text_means l : local_text l -> exists s, local_means l s.
Proof.
  intros [(us & Hus & ->)|H]; eexists; [now apply LM_quoted|now apply LM_plain].
Qed.
Lemma printable_quotable s : Forall printable s ->
  exists us, Forall quoted_unit us /\ map (fun u => last u 0%N) us = s.
Proof.
  intros H. exists (map (fun c => [BACKSLASH; c]) s). split.
  - induction H; cbn; constructor; auto. now constructor.
  - clear. induction s as [|c s IH]; [reflexivity|]. cbn. now rewrite IH.
Qed.

(** ** The verb selects the alternative *)
Lemma ci_eq_mail v u : same_ci v (s2b "MAIL FROM:") -> command_p (v ++ u) = command_mail_args (v ++ u).
Proof.
  intros Hv. assert (Hn : blanks []) by constructor. unfold command_p.
  change (v ++ u) with ([] ++ v ++ u). skip_alt (s2b "MAIL FROM:").
  assert (E : alt command_noop_args (alt command_quit_args (alt command_rcpt_args
     (alt command_rset_args command_vrfy_args))) ([] ++ v ++ u) = Err).
  { skip_alt (s2b "MAIL FROM:"). apply bind_Err; apply (lead_Err (s2b "MAIL FROM:")); auto. }
  unfold alt at 1. rewrite E. now destruct (command_mail_args ([] ++ v ++ u)).
Qed.
Lemma ci_eq_rcpt v u : same_ci v (s2b "RCPT TO:") -> command_p (v ++ u) = command_rcpt_args (v ++ u).
Proof.
  intros Hv. assert (Hn : blanks []) by constructor. unfold command_p.
  change (v ++ u) with ([] ++ v ++ u). skip_alt (s2b "RCPT TO:").
  assert (E : alt command_rset_args command_vrfy_args ([] ++ v ++ u) = Err).
  { skip_alt (s2b "RCPT TO:"). apply bind_Err; apply (lead_Err (s2b "RCPT TO:")); auto. }
  unfold alt at 1. rewrite E. now destruct (command_rcpt_args ([] ++ v ++ u)).
Qed.
(** The path only matters through the address it denotes. *)
Lemma path_command_same verb {A} (P : parser A) (mk : A -> parameters -> command) v w t1 t2 a tail :
  same_ci v verb -> blanks w -> stops (fun c => mem c spaces) t1 -> stops (fun c => mem c spaces) t2 ->
  t1 <> [] -> t2 <> [] ->
  P (t1 ++ tail) = Done tail a -> P (t2 ++ tail) = Done tail a ->
  path_command verb P mk (v ++ w ++ t1 ++ tail) = path_command verb P mk (v ++ w ++ t2 ++ tail).
Proof.
  intros Hv Hw H1 H2 N1 N2 E1 E2. unfold path_command.
  rewrite !tag_no_case_app by exact Hv. cbn [bind].
  rewrite !eat_spaces_app; auto.
  - cbn [bind]. now rewrite E1, E2.
  - destruct t2; [congruence|exact H2].
  - destruct t1; [congruence|exact H1].
Qed.

(** ** Recasing *)
Lemma verbs_mismatch : forallb (fun a => forallb (fun b => beq a b || mismatch a b) verbs) verbs = true.
Proof. vm_compute. reflexivity. Qed.
Lemma verbs_ok : forallb verb_ok verbs = true.
Proof. vm_compute. reflexivity. Qed.
Section Recase.
Variables (verb w v v' u : bytes).
Hypotheses (Hin : In verb verbs) (Hw : blanks w) (Hv : same_ci v verb) (Hv' : same_ci v' verb).
Lemma verb_cases t : In t verbs -> t = verb \/ mismatch verb t = true.
Proof.
  intros Ht. pose proof verbs_mismatch as P. rewrite forallb_forall in P. specialize (P verb Hin).
  rewrite forallb_forall in P. specialize (P t Ht). apply orb_true_iff in P.
  destruct P as [P|P]; [left; symmetry; now apply beq_eq|now right].
Qed.
Lemma in_verb_ok t : In t verbs -> verb_ok t = true.
Proof. intros Ht. pose proof verbs_ok as P. rewrite forallb_forall in P. now apply P. Qed.
Lemma tag_recase {B} t (f : bytes -> iresult B) : In t verbs ->
  bind (tag_no_case t (w ++ v ++ u)) (fun i _ => f i) = bind (tag_no_case t (w ++ v' ++ u)) (fun i _ => f i).
Proof.
  intros Ht. destruct (verb_cases t Ht) as [->|Hm].
  - destruct w as [|c w0]; cbn [app]; [now rewrite !tag_no_case_app|].
    pose proof (in_verb_ok verb Hin) as Hok. inversion Hw as [|? ? Hc _]; subst. apply blank_in in Hc.
    assert (E : forall x, tag_no_case verb (c :: x) = Err).
    { intros x. destruct verb as [|a t]; [discriminate|]. unfold tag_no_case, tag_with. cbn [compare_with].
      apply andb_true_iff in Hok. destruct Hok as [_ Hl].
      assert (Hlc : is_letter c = false) by (destruct Hc as [-> | ->]; reflexivity).
      assert (E : eq_no_case c a = false) by (unfold eq_no_case; rewrite Hl, Hlc; reflexivity). now rewrite E. }
    now rewrite !E.
  - rewrite !(lead_Err verb t) by (auto using in_verb_ok). reflexivity.
Qed.
Lemma hello_recase t mk : In t verbs ->
  hello_command t mk (w ++ v ++ u) = hello_command t mk (w ++ v' ++ u).
Proof.
  intros Ht. unfold hello_command. pose proof (in_verb_ok verb Hin) as Hok. apply andb_true_iff in Hok.
  rewrite !eat_spaces_app; auto; try (apply (verb_stops_blank verb); tauto). cbn [bind].
  destruct (verb_cases t Ht) as [->|Hm].
  - now rewrite !tag_no_case_app.
  - now rewrite !(verb_Err verb t Hm).
Qed.
Lemma command_recase : command_p (w ++ v ++ u) = command_p (w ++ v' ++ u).
Proof.
  assert (Ha : forall P Q : parser command, P (w ++ v ++ u) = P (w ++ v' ++ u) ->
     Q (w ++ v ++ u) = Q (w ++ v' ++ u) -> alt P Q (w ++ v ++ u) = alt P Q (w ++ v' ++ u)).
  { intros P Q H1 H2. unfold alt. rewrite H1, H2. reflexivity. }
  unfold command_p.
  repeat (apply Ha; [first [apply hello_recase; cbn; tauto | apply tag_recase; cbn; tauto]|]).
  apply tag_recase; cbn; tauto.
Qed.
End Recase.

(** ** Kinds *)
Lemma command_text_verb b c : command_text b c ->
  exists w v rest, b = w ++ v ++ rest /\ blanks w /\ same_ci v (verb_of c).
Proof.
  assert (Hn : blanks []) by constructor.
  intros H; destruct H; cbn [verb_of].
  4,5: do 3 eexists; split; [reflexivity|]; split; eassumption.
  all: exists []; do 2 eexists; split; [reflexivity|]; split; eassumption.
Qed.
Lemma same_ci_firstn v t n : same_ci v t -> same_ci (firstn n v) (firstn n t).
Proof. unfold same_ci. intros H. now rewrite <- !firstn_map, H. Qed.
