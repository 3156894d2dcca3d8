(** Proofs about the counting parsers: they are the parsers, and how much they count. *)
From Coq Require Import Lia.
From Verif Require Import Bytes Nom Ip Message Reply NomWork.

(** * Counting changes nothing *)
Definition agrees {A} (c : cparser A) (p : parser A) : Prop := forall i, fst (c i) = p i.

Lemma fst_cbind {A B} (r : counted A) (f : bytes -> A -> counted B) :
  fst (cbind r f) = bind (fst r) (fun i x => fst (f i x)).
Proof. destruct r as [[i x | | |] n]; cbn [cbind bind fst]; auto. destruct (f i x); reflexivity. Qed.
Lemma bind_ext {A B} (r : iresult A) (f g : bytes -> A -> iresult B) :
  (forall i x, f i x = g i x) -> bind r f = bind r g.
Proof. intros H; destruct r; cbn [bind]; auto. Qed.

Lemma compare_agrees eq i t : fst (compare_counted eq i t) = compare_with eq i t.
Proof.
  revert i; induction t as [| b t IH]; intros [| a i]; cbn [compare_counted compare_with]; auto.
  destruct (eq a b); auto. rewrite <- IH. destruct (compare_counted eq i t); reflexivity.
Qed.
Lemma ctag_with_agrees eq t : agrees (ctag_with eq t) (tag_with eq t).
Proof.
  intros i. unfold ctag_with, tag_with. rewrite <- compare_agrees.
  destruct (compare_counted eq i t) as [[] n]; reflexivity.
Qed.
Lemma ctag_agrees t : agrees (ctag t) (tag t).
Proof. apply ctag_with_agrees. Qed.
Lemma ctag_no_case_agrees t : agrees (ctag_no_case t) (tag_no_case t).
Proof. apply ctag_with_agrees. Qed.
Lemma cone_of_agrees s : agrees (cone_of s) (one_of s).
Proof. intros [| c i]; cbn [cone_of one_of fst]; reflexivity. Qed.
Lemma span_agrees p i : fst (span_counted p i) = span p i.
Proof.
  induction i as [| c i IH]; cbn [span_counted span]; auto. destruct (p c); auto.
  rewrite <- IH. destruct (span_counted p i) as [[a r] n]; reflexivity.
Qed.
Lemma cis_a_agrees s : agrees (cis_a s) (is_a s).
Proof.
  intros i. unfold cis_a, is_a. rewrite <- span_agrees.
  destruct (span_counted _ i) as [[[| c a] [| d r]] n]; reflexivity.
Qed.
Lemma ceat_separator_agrees s : agrees (ceat_separator s) (eat_separator s).
Proof.
  intros i. unfold ceat_separator, eat_separator. rewrite <- span_agrees.
  destruct (span_counted _ i) as [[a r] n]; reflexivity.
Qed.
Lemma ctake_agrees n : agrees (ctake n) (take n).
Proof. intros i; reflexivity. Qed.
Lemma compare_prefixb i t :
  prefixb t i = match compare_with N.eqb i t with CmpOk => true | _ => false end.
Proof.
  revert i; induction t as [| b t IH]; intros [| a i]; cbn [prefixb compare_with]; auto.
  rewrite IH, (N.eqb_sym b a). destruct (N.eqb a b); reflexivity.
Qed.
Lemma find_sub_agrees sub i : fst (find_sub_counted sub i) = find_sub sub i.
Proof.
  induction i as [| c i IH]; cbn [find_sub_counted find_sub]; rewrite compare_prefixb, <- compare_agrees;
    destruct (compare_counted N.eqb _ sub) as [[] n]; cbn [fst]; auto;
    rewrite <- IH; destruct (find_sub_counted sub i); reflexivity.
Qed.
Lemma ctake_until_agrees s : agrees (ctake_until s) (take_until s).
Proof.
  intros i. unfold ctake_until, take_until. rewrite <- find_sub_agrees.
  destruct (Nat.ltb _ _); auto. destruct (find_sub_counted s i) as [[] n]; reflexivity.
Qed.
Lemma ctake_until_and_consume_agrees s : agrees (ctake_until_and_consume s) (take_until_and_consume s).
Proof.
  intros i. unfold ctake_until_and_consume, take_until_and_consume. rewrite <- find_sub_agrees.
  destruct (Nat.ltb _ _); auto. destruct (find_sub_counted s i) as [[] n]; reflexivity.
Qed.
Lemma cpmap_agrees {A B} c p (f : A -> B) : agrees c p -> agrees (cpmap c f) (pmap p f).
Proof. intros H i. unfold cpmap, pmap. rewrite fst_cbind, H. reflexivity. Qed.
Lemma cmap_res_agrees {B} c p (f : bytes -> option B) : agrees c p -> agrees (cmap_res c f) (map_res p f).
Proof. intros H i. unfold cmap_res, map_res. rewrite fst_cbind, H. reflexivity. Qed.
Lemma cverify_agrees {A} c p (f : A -> bool) : agrees c p -> agrees (cverify c f) (verify p f).
Proof. intros H i. unfold cverify, verify. rewrite fst_cbind, H. reflexivity. Qed.
Lemma cpreceded_agrees {A B} c p (d : cparser B) q :
  @agrees A c p -> agrees d q -> agrees (cpreceded c d) (preceded p q).
Proof. intros H K i. unfold cpreceded, preceded. rewrite fst_cbind, H. apply bind_ext; intros; apply K. Qed.
Lemma copt_agrees {A} c p : @agrees A c p -> agrees (copt c) (opt p).
Proof. intros H i. unfold copt, opt. rewrite <- H. destruct (c i) as [[] n]; reflexivity. Qed.
Lemma ccomplete_agrees {A} c p : @agrees A c p -> agrees (ccomplete c) (complete p).
Proof. intros H i. unfold ccomplete, complete. rewrite <- H. destruct (c i) as [[] n]; reflexivity. Qed.
Lemma calt_agrees {A} c p d q : @agrees A c p -> agrees d q -> agrees (calt c d) (alt p q).
Proof.
  intros H K i. unfold calt, alt. rewrite <- H, <- K. destruct (c i) as [[] n]; cbn [fst]; auto.
  destruct (d i); reflexivity.
Qed.
Lemma crecognize_agrees {A} c p : @agrees A c p -> agrees (crecognize c) (recognize p).
Proof. intros H i. unfold crecognize, recognize. rewrite fst_cbind, H. reflexivity. Qed.
Lemma cmany0_agrees {A} c p : @agrees A c p -> agrees (cmany0 c) (many0 p).
Proof.
  intros H. assert (L : forall fuel i, fst (cmany0_loop fuel c i) = many0_loop fuel p i).
  { induction fuel as [| fuel IH]; intros i; cbn [cmany0_loop many0_loop]; auto.
    destruct i as [| b i]; auto. rewrite <- H. destruct (c (b :: i)) as [[r x | | |] n]; cbn [fst]; auto.
    destruct (Nat.eqb _ _); auto.
    rewrite <- IH. destruct (cmany0_loop fuel c r) as [[] m]; reflexivity. }
  intros i. apply L.
Qed.
Lemma csep_loop_agrees {A B} cs s c p : @agrees A cs s -> @agrees B c p ->
  forall fuel i, fst (csep_loop fuel cs c i) = sep_loop fuel s p i.
Proof.
  intros Hs H. induction fuel as [| fuel IH]; intros i; cbn [csep_loop sep_loop]; auto.
  rewrite <- Hs. destruct (cs i) as [[i2 y | | |] n]; cbn [fst]; auto.
  destruct (Nat.eqb _ _); auto.
  rewrite <- H. destruct (c i2) as [[i3 x | | |] m]; cbn [fst]; auto. destruct (Nat.eqb _ _); auto.
  rewrite <- IH. destruct (csep_loop fuel cs c i3) as [[] k]; reflexivity.
Qed.
Lemma cnonempty_agrees {A B} cs s c p : @agrees A cs s -> @agrees B c p ->
  agrees (cseparated_nonempty_list cs c) (separated_nonempty_list s p).
Proof.
  intros Hs H i. unfold cseparated_nonempty_list, separated_nonempty_list. rewrite fst_cbind, H.
  apply bind_ext. intros r x. destruct (Nat.eqb _ _); auto.
  rewrite fst_cbind, (csep_loop_agrees cs s c p) by auto. reflexivity.
Qed.
Lemma cseparated_list_agrees {A B} cs s c p : @agrees A cs s -> @agrees B c p ->
  agrees (cseparated_list cs c) (separated_list s p).
Proof.
  intros Hs H i. unfold cseparated_list, separated_list. rewrite <- H.
  destruct (c i) as [[r x | | |] n]; cbn [fst]; auto. destruct (Nat.eqb _ _); auto.
  rewrite <- (csep_loop_agrees cs s c p) by auto.
  destruct (csep_loop _ cs c r) as [[] k]; reflexivity.
Qed.
Lemma agrees_seq {A B} c p (f : bytes -> A -> counted B) g :
  agrees c p -> (forall x, agrees (fun i => f i x) (fun i => g i x)) ->
  agrees (fun i => cbind (c i) f) (fun i => bind (p i) g).
Proof. intros H K i. rewrite fst_cbind, H. apply bind_ext. intros j x. apply (K x). Qed.
Lemma agrees_done {A} (f : bytes -> iresult A) : agrees (fun i => cret (f i)) f.
Proof. intros i; reflexivity. Qed.

Ltac agree := repeat first
  [ apply ctag_agrees | apply ctag_no_case_agrees | apply cone_of_agrees | apply cis_a_agrees
  | apply ceat_separator_agrees | apply ctake_until_agrees | apply ctake_until_and_consume_agrees
  | apply ctake_agrees | apply agrees_done
  | apply cpmap_agrees | apply cmap_res_agrees | apply cverify_agrees | apply cpreceded_agrees
  | apply copt_agrees | apply ccomplete_agrees | apply calt_agrees | apply crecognize_agrees
  | apply cmany0_agrees | apply cnonempty_agrees | apply cseparated_list_agrees
  | (eapply agrees_seq; [| intros ? ]) ].

Lemma chostname_agrees : agrees chostname hostname.
Proof.
  unfold chostname, hostname, chostname_host, hostname_host, chostname_v6, hostname_v6, chostname_v4,
    hostname_v4, clabel, label, cseparated_nonempty_list_complete, separated_nonempty_list_complete. agree.
Qed.
Lemma cemail_agrees : agrees cemail_p email_p.
Proof.
  unfold cemail_p, email_p, clocalpart, localpart, cquoted_string, quoted_string, cdot_string, dot_string,
    cquoted_char, quoted_char, cseparated_nonempty_list_complete, separated_nonempty_list_complete.
  agree; apply chostname_agrees.
Qed.
Lemma cpath_agrees : agrees caddress_in_maybe_bracketed_path address_in_maybe_bracketed_path.
Proof.
  unfold caddress_in_maybe_bracketed_path, address_in_maybe_bracketed_path, cbracketed_path, bracketed_path,
    caddress_in_path, address_in_path, csource_route, source_route, cpath_hop, path_hop.
  agree; first [apply chostname_agrees | apply cemail_agrees].
Qed.
Lemma cparameters_agrees : agrees cparse_parameters parse_parameters.
Proof. unfold cparse_parameters, parse_parameters, cparameter, parameter, eat_spaces, clabel, label. agree. Qed.
Lemma ccommand_agrees : agrees ccommand_p command_p.
Proof.
  unfold ccommand_p, command_p, command_data_args, command_ehlo_args, command_expn_args, command_helo_args,
    command_help_args, ccommand_mail_args, command_mail_args, command_noop_args, command_quit_args,
    ccommand_rcpt_args, command_rcpt_args, command_rset_args, command_vrfy_args, cmail_from, mail_from,
    cbare_command, bare_command, chello_command, hello_command, cstring_command, string_command,
    copt_string_command, opt_string_command, crlf, eat_spaces.
  agree; first [apply chostname_agrees | apply cpath_agrees | apply cparameters_agrees].
Qed.
Lemma creply_agrees : agrees creply_p reply_p.
Proof. unfold creply_p, reply_p, reply_code_p, reply_last_p. agree. Qed.

(** * How much is counted: at least every byte that is consumed *)
Definition looks {A} (c : cparser A) : Prop :=
  forall i, match c i with (Done r _, n) => length i <= length r + n | _ => True end.

Lemma looks_seq {A B} (c : cparser A) (f : bytes -> A -> counted B) :
  looks c -> (forall x, looks (fun i => f i x)) -> looks (fun i => cbind (c i) f).
Proof.
  intros H K i. specialize (H i). destruct (c i) as [[r x | | |] n]; cbn [cbind]; auto.
  specialize (K x r). cbv beta in K. destruct (f r x) as [[r' y | | |] m]; auto. lia.
Qed.
Lemma looks_ret {A} (x : A) : looks (fun i => cret (Done i x)).
Proof. intros i; cbn [cret]. lia. Qed.
Lemma compare_counted_ok eq i t n : compare_counted eq i t = (CmpOk, n) -> n = length t /\ length t <= length i.
Proof.
  revert i n; induction t as [| b t IH]; intros [| a i] n; cbn [compare_counted length]; intros E;
    try (injection E as <-; lia); try discriminate.
  destruct (eq a b); [| discriminate]. specialize (IH i). destruct (compare_counted eq i t) as [[] m];
    try discriminate. injection E as <-. destruct (IH m eq_refl). lia.
Qed.
Lemma looks_tag_with eq t : looks (ctag_with eq t).
Proof.
  intros i. unfold ctag_with. destruct (compare_counted eq i t) as [[] n] eqn:E; auto.
  apply compare_counted_ok in E. rewrite skipn_length. lia.
Qed.
Lemma looks_tag t : looks (ctag t).
Proof. apply looks_tag_with. Qed.
Lemma looks_tag_no_case t : looks (ctag_no_case t).
Proof. apply looks_tag_with. Qed.
Lemma looks_one_of s : looks (cone_of s).
Proof. intros [| c i]; cbn [cone_of]; auto. destruct (mem c s); auto. cbn [length]. lia. Qed.
Lemma span_counted_count p i a r n : span_counted p i = (a, r, n) ->
  length a + length r = length i /\ length a <= n /\ n <= length a + 1.
Proof.
  revert a r n; induction i as [| c i IH]; intros a r n; cbn [span_counted length].
  - intros E; injection E as <- <- <-; cbn [length]; lia.
  - destruct (p c).
    + destruct (span_counted p i) as [[a' r'] n'] eqn:E'. intros E; injection E as <- <- <-.
      destruct (IH _ _ _ eq_refl) as (H1 & H2 & H3). cbn [length]. lia.
    + intros E; injection E as <- <- <-. cbn [length]. lia.
Qed.
Lemma looks_is_a s : looks (cis_a s).
Proof.
  intros i. unfold cis_a. destruct (span_counted _ i) as [[a r] n] eqn:E. apply span_counted_count in E.
  destruct a, r; cbn [length] in *; lia.
Qed.
Lemma looks_eat s : looks (ceat_separator s).
Proof.
  intros i. unfold ceat_separator. destruct (span_counted _ i) as [[a r] n] eqn:E.
  apply span_counted_count in E. lia.
Qed.
Lemma compare_counted_le eq i t r n : compare_counted eq i t = (r, n) -> n <= length t.
Proof.
  revert i r n; induction t as [| b t IH]; intros [| a i] r n; cbn [compare_counted length]; intros E;
    try (injection E as <- <-; lia).
  destruct (eq a b); [| injection E as <- <-; lia]. specialize (IH i).
  destruct (compare_counted eq i t) as [r' m]. injection E as <- <-. specialize (IH _ _ eq_refl). lia.
Qed.
(** What is not found costs something at every position, and nothing is tried beyond it. *)
Lemma find_sub_count sub i n m : sub <> [] -> find_sub_counted sub i = (Some n, m) ->
  n + length sub <= length i /\ n + length sub <= m /\ m <= length sub * (n + 1).
Proof.
  intros NE. revert n m; induction i as [| c i IH]; intros n m; cbn [find_sub_counted].
  - destruct (compare_counted N.eqb [] sub) as [[] k] eqn:E; intros F; try discriminate.
    injection F as <- <-. apply compare_counted_ok in E. lia.
  - destruct (compare_counted N.eqb (c :: i) sub) as [cr k] eqn:E.
    assert (cr <> CmpOk -> 1 <= k).
    { destruct sub as [| b sub]; [congruence |]. cbn [compare_counted] in E. destruct (N.eqb c b).
      - destruct (compare_counted N.eqb i sub). injection E as _ <-. lia.
      - injection E as _ <-. lia. }
    pose proof (compare_counted_le _ _ _ _ _ E).
    destruct cr; [| destruct (find_sub_counted sub i) as [[n' |] m'] ..]; cbn [option_map]; intros F;
      try discriminate; injection F as <- <-.
    + apply compare_counted_ok in E. cbn [length] in *. lia.
    + specialize (IH _ _ eq_refl). cbn [length]. assert (1 <= k) by (apply H; discriminate). lia.
    + specialize (IH _ _ eq_refl). cbn [length]. assert (1 <= k) by (apply H; discriminate). lia.
Qed.
Lemma find_sub_count_none sub i m : find_sub_counted sub i = (None, m) -> m <= length sub * (length i + 1).
Proof.
  revert m; induction i as [| c i IH]; intros m; cbn [find_sub_counted].
  - destruct (compare_counted N.eqb [] sub) as [cr k] eqn:E. apply compare_counted_le in E.
    destruct cr; intros F; try discriminate; injection F as <-; cbn [length]; lia.
  - destruct (compare_counted N.eqb (c :: i) sub) as [cr k] eqn:E. apply compare_counted_le in E.
    destruct cr; [| destruct (find_sub_counted sub i) as [[n' |] m'] ..]; cbn [option_map]; intros F;
      try discriminate; injection F as <-; specialize (IH _ eq_refl); cbn [length]; lia.
Qed.
Lemma looks_until s : s <> [] -> looks (ctake_until s).
Proof.
  intros NE i. unfold ctake_until. destruct (Nat.ltb _ _); auto.
  destruct (find_sub_counted s i) as [[n |] m] eqn:E; auto. apply find_sub_count in E; auto.
  rewrite skipn_length. lia.
Qed.
Lemma looks_until_and_consume s : s <> [] -> looks (ctake_until_and_consume s).
Proof.
  intros NE i. unfold ctake_until_and_consume. destruct (Nat.ltb _ _); auto.
  destruct (find_sub_counted s i) as [[n |] m] eqn:E; auto. apply find_sub_count in E; auto.
  rewrite skipn_length. lia.
Qed.
Lemma looks_pmap {A B} c (f : A -> B) : looks c -> looks (cpmap c f).
Proof. intros H. apply looks_seq; auto. intros x. apply (looks_ret (f x)). Qed.
Lemma looks_map_res {B} c (f : bytes -> option B) : looks c -> looks (cmap_res c f).
Proof. intros H. apply looks_seq; auto. intros x i. destruct (f x); auto. lia. Qed.
Lemma looks_verify {A} c (f : A -> bool) : looks c -> looks (cverify c f).
Proof. intros H. apply looks_seq; auto. intros x i. destruct (f x); auto. lia. Qed.
(** [verify!(take!(1), ...)] counts the byte, [map_res!(take!(3), ...)] the three *)
Lemma looks_verify_take f : looks (cverify (ctake 1) f).
Proof.
  intros i. unfold cverify, ctake, take, cret. destruct (Nat.leb_spec 1 (length i)); cbn [cbind]; auto.
  destruct (f _); auto. rewrite skipn_length. lia.
Qed.
Lemma looks_map_res_take {B} k (f : bytes -> option B) : looks (cmap_res (ctake k) f).
Proof.
  intros i. unfold cmap_res, ctake, take, cret. destruct (Nat.leb_spec k (length i)); cbn [cbind]; auto.
  destruct (f _); auto. rewrite skipn_length, firstn_length. lia.
Qed.
Lemma looks_preceded {A B} (c : cparser A) (d : cparser B) : looks c -> looks d -> looks (cpreceded c d).
Proof. intros H K. apply looks_seq; auto. Qed.
Lemma looks_opt {A} (c : cparser A) : looks c -> looks (copt c).
Proof. intros H i. specialize (H i). unfold copt. destruct (c i) as [[] n]; auto. lia. Qed.
Lemma looks_complete {A} (c : cparser A) : looks c -> looks (ccomplete c).
Proof. intros H i. specialize (H i). unfold ccomplete. destruct (c i) as [[] n]; auto. Qed.
Lemma looks_alt {A} (c d : cparser A) : looks c -> looks d -> looks (calt c d).
Proof.
  intros H K i. specialize (H i); specialize (K i). unfold calt. destruct (c i) as [[] n]; auto.
  destruct (d i) as [[] m]; auto. lia.
Qed.
Lemma looks_recognize {A} (c : cparser A) : looks c -> looks (crecognize c).
Proof.
  intros H i. specialize (H i). unfold crecognize. destruct (c i) as [[] n]; cbn [cbind cret]; auto. lia.
Qed.
Lemma looks_many0 {A} (c : cparser A) : looks c -> looks (cmany0 c).
Proof.
  intros H. assert (L : forall fuel, looks (cmany0_loop fuel c)).
  { induction fuel as [| fuel IH]; intros i; cbn [cmany0_loop]; auto.
    destruct i as [| b i]; [cbn [length]; lia |]. specialize (H (b :: i)).
    destruct (c (b :: i)) as [[r x | | |] n]; auto; [| lia].
    destruct (Nat.eqb _ _); auto. specialize (IH r).
    destruct (cmany0_loop fuel c r) as [[] m]; cbn [cbind cret]; auto. lia. }
  intros i. apply L.
Qed.
Lemma looks_sep_loop {A B} (s : cparser A) (c : cparser B) fuel : looks s -> looks c ->
  looks (csep_loop fuel s c).
Proof.
  intros Hs H. induction fuel as [| fuel IH]; intros i; cbn [csep_loop]; auto.
  specialize (Hs i). destruct (s i) as [[i2 y | | |] n]; auto; [| lia].
  destruct (Nat.eqb _ _); [lia |].
  specialize (H i2). destruct (c i2) as [[i3 x | | |] m]; auto; [| lia].
  destruct (Nat.eqb _ _); [lia |]. specialize (IH i3).
  destruct (csep_loop fuel s c i3) as [[] k]; cbn [cbind cret]; auto. lia.
Qed.
Lemma looks_nonempty {A B} (s : cparser A) (c : cparser B) : looks s -> looks c ->
  looks (cseparated_nonempty_list s c).
Proof.
  intros Hs H i. unfold cseparated_nonempty_list. pose proof (H i).
  destruct (c i) as [[r x | | |] n]; cbn [cbind]; auto. destruct (Nat.eqb _ _); cbn [cret]; auto.
  pose proof (looks_sep_loop s c (S (length r)) Hs H r).
  destruct (csep_loop _ s c r) as [[] k]; cbn [cbind cret]; auto. lia.
Qed.
Lemma looks_separated {A B} (s : cparser A) (c : cparser B) : looks s -> looks c ->
  looks (cseparated_list s c).
Proof.
  intros Hs H i. unfold cseparated_list. pose proof (H i).
  destruct (c i) as [[r x | | |] n]; auto; [| lia]. destruct (Nat.eqb _ _); auto.
  pose proof (looks_sep_loop s c (S (length r)) Hs H r).
  destruct (csep_loop _ s c r) as [[] k]; cbn [cbind cret]; auto. lia.
Qed.

Ltac look := repeat first
  [ apply looks_verify_take | apply looks_map_res_take
  | apply looks_tag | apply looks_tag_no_case | apply looks_one_of | apply looks_is_a
  | apply looks_eat | (apply looks_until; discriminate) | (apply looks_until_and_consume; discriminate)
  | apply looks_ret
  | apply looks_pmap | apply looks_map_res | apply looks_verify | apply looks_preceded
  | apply looks_opt | apply looks_complete | apply looks_alt | apply looks_recognize
  | apply looks_many0 | apply looks_nonempty | apply looks_separated
  | (eapply looks_seq; [| intros ? ]) ].
Lemma looks_hostname : looks chostname.
Proof.
  unfold chostname, chostname_host, chostname_v6, chostname_v4, clabel, cseparated_nonempty_list_complete.
  look.
Qed.
Lemma looks_email : looks cemail_p.
Proof.
  unfold cemail_p, clocalpart, cquoted_string, cdot_string, cquoted_char, cseparated_nonempty_list_complete.
  look; apply looks_hostname.
Qed.
Lemma looks_path : looks caddress_in_maybe_bracketed_path.
Proof.
  unfold caddress_in_maybe_bracketed_path, cbracketed_path, caddress_in_path, csource_route, cpath_hop.
  look; first [apply looks_hostname | apply looks_email].
Qed.
Lemma looks_parameters : looks cparse_parameters.
Proof. unfold cparse_parameters, cparameter, clabel. look. Qed.
Lemma looks_command : looks ccommand_p.
Proof.
  unfold ccommand_p, ccommand_mail_args, ccommand_rcpt_args, cmail_from, cbare_command, chello_command,
    cstring_command, copt_string_command.
  look; first [apply looks_hostname | apply looks_path | apply looks_parameters].
Qed.
Lemma looks_reply : looks creply_p.
Proof. unfold creply_p. look. Qed.

(** * How much is counted: at most a fixed multiple of the input *)
(** At most [b], whatever happens. *)
Definition flat {A} (b : nat) (c : cparser A) : Prop :=
  forall i, match c i with (Done r _, n) => length r <= length i /\ n <= b | (_, n) => n <= b end.
(** [a] for each byte consumed and [b] more; when nothing is returned, [a] for each byte
    of the input. *)
Definition paid {A} (a b : nat) (c : cparser A) : Prop :=
  forall i, match c i with
            | (Done r _, n) => length r <= length i /\ n + a * length r <= a * length i + b
            | (_, n) => n <= a * length i + b
            end.
(** The same, and a failure costs at most [b]. *)
Definition cheap {A} (a b : nat) (c : cparser A) : Prop :=
  paid a b c /\ forall i, match c i with (Err, n) => n <= b | _ => True end.
(** The same, and so does a wish for more input. *)
Definition prudent {A} (a b : nat) (c : cparser A) : Prop :=
  cheap a b c /\ forall i, match c i with (Incomplete, n) => n <= b | _ => True end.
(** [a] for each byte of the input and [b] more. *)
Definition linear {A} (a b : nat) (c : cparser A) : Prop :=
  forall i, match c i with (Done r _, n) => length r <= length i /\ n <= a * length i + b
                         | (_, n) => n <= a * length i + b end.

Ltac case_count c i := let r := fresh "r" in let x := fresh "x" in let n := fresh "n" in
  destruct (c i) as [[r x | | |] n].
Lemma paid_mono {A} a b a' b' (c : cparser A) : paid a b c -> a <= a' -> b <= b' -> paid a' b' c.
Proof.
  intros H Ha Hb i. specialize (H i). case_count c i; try nia.
Qed.
Lemma linear_mono {A} a b a' b' (c : cparser A) : linear a b c -> a <= a' -> b <= b' -> linear a' b' c.
Proof. intros H Ha Hb i. specialize (H i). case_count c i; try nia. Qed.
Lemma flat_prudent {A} b (c : cparser A) : flat b c -> prudent 0 b c.
Proof. intros H. repeat split; intros i; specialize (H i); case_count c i; auto; lia. Qed.
Lemma flat_paid {A} b (c : cparser A) : flat b c -> paid 0 b c.
Proof. intros H. apply flat_prudent in H. apply H. Qed.
Lemma prudent_cheap {A} a b (c : cparser A) : prudent a b c -> cheap a b c.
Proof. intros H; apply H. Qed.
Lemma cheap_paid {A} a b (c : cparser A) : cheap a b c -> paid a b c.
Proof. intros H; apply H. Qed.
Lemma paid_linear {A} a b (c : cparser A) : paid a b c -> linear a b c.
Proof. intros H i. specialize (H i). case_count c i; lia. Qed.

Lemma flat_tag_with eq t : flat (length t) (ctag_with eq t).
Proof.
  intros i. unfold ctag_with. destruct (compare_counted eq i t) as [[] n] eqn:E;
    apply compare_counted_le in E; auto. rewrite skipn_length. lia.
Qed.
Lemma flat_tag t : flat (length t) (ctag t).
Proof. apply flat_tag_with. Qed.
Lemma flat_tag_no_case t : flat (length t) (ctag_no_case t).
Proof. apply flat_tag_with. Qed.
Lemma flat_one_of s : flat 1 (cone_of s).
Proof. intros [| c i]; cbn [cone_of]; [lia |]. destruct (mem c s); cbn [length]; lia. Qed.
Lemma flat_take k : flat 0 (ctake k).
Proof. intros i. unfold ctake, take, cret. destruct (Nat.leb _ _); auto. rewrite skipn_length. lia. Qed.
Lemma prudent_is_a s : prudent 1 1 (cis_a s).
Proof.
  repeat split; intros i; unfold cis_a; destruct (span_counted _ i) as [[a r] n] eqn:E;
    apply span_counted_count in E; destruct a, r; cbn [length] in *; auto; lia.
Qed.
Lemma paid_eat s : paid 1 1 (ceat_separator s).
Proof.
  intros i; unfold ceat_separator; destruct (span_counted _ i) as [[a r] n] eqn:E;
    apply span_counted_count in E; lia.
Qed.
Lemma paid_until s : s <> [] -> paid (length s) (length s) (ctake_until s).
Proof.
  intros NE i. unfold ctake_until. destruct (Nat.ltb _ _); [lia |].
  destruct (find_sub_counted s i) as [[n |] m] eqn:E.
  - apply find_sub_count in E; auto. rewrite skipn_length. split; [lia |].
    assert (length i = (length i - n) + n) by lia. nia.
  - apply find_sub_count_none in E. lia.
Qed.
Lemma paid_until_and_consume s : s <> [] -> paid (length s) (length s) (ctake_until_and_consume s).
Proof.
  intros NE i. unfold ctake_until_and_consume. destruct (Nat.ltb _ _); [lia |].
  destruct (find_sub_counted s i) as [[n |] m] eqn:E.
  - apply find_sub_count in E; auto. rewrite skipn_length. split; [lia |].
    assert (length i = (length i - (n + length s)) + n + length s) by lia. nia.
  - apply find_sub_count_none in E. lia.
Qed.

(** ** Sequences *)
Lemma flat_seq {A B} b b' (c : cparser A) (f : bytes -> A -> counted B) :
  flat b c -> (forall x, flat b' (fun i => f i x)) -> flat (b + b') (fun i => cbind (c i) f).
Proof.
  intros H K i. specialize (H i). case_count c i; cbn [cbind]; try lia.
  specialize (K x r). cbv beta in K. destruct (f r x) as [[] m]; lia.
Qed.
Lemma paid_seq {A B} a b a' b' (c : cparser A) (f : bytes -> A -> counted B) :
  paid a b c -> (forall x, paid a' b' (fun i => f i x)) ->
  paid (Nat.max a a') (b + b') (fun i => cbind (c i) f).
Proof.
  intros H K.
  apply (paid_mono _ _ (Nat.max a a') b) in H; try lia.
  assert (K' : forall x, paid (Nat.max a a') b' (fun i => f i x)).
  { intros x. apply (paid_mono a' b'); auto; lia. }
  revert H K'. generalize (Nat.max a a'). clear K a a'. intros a H K i.
  specialize (H i). case_count c i; cbn [cbind]; try nia.
  specialize (K x r). cbv beta in K. destruct (f r x) as [[] m]; nia.
Qed.
Lemma prudent_seq {A B} b a' b' (c : cparser A) (f : bytes -> A -> counted B) :
  flat b c -> (forall x, prudent a' b' (fun i => f i x)) ->
  prudent a' (b + b') (fun i => cbind (c i) f).
Proof.
  intros H K. repeat split.
  - apply (paid_mono (Nat.max 0 a') (b + b')); try lia. apply paid_seq; [apply flat_paid; auto |].
    intros x. apply (K x).
  - intros i. specialize (H i). case_count c i; cbn [cbind]; auto; try lia.
    destruct (K x) as ((_ & K1) & _). specialize (K1 r). cbv beta in K1. destruct (f r x) as [[] m]; auto. lia.
  - intros i. specialize (H i). case_count c i; cbn [cbind]; auto; try lia.
    destruct (K x) as (_ & K1). specialize (K1 r). cbv beta in K1. destruct (f r x) as [[] m]; auto. lia.
Qed.
Lemma linear_seq {A B} a b a' b' (c : cparser A) (f : bytes -> A -> counted B) :
  linear a b c -> (forall x, linear a' b' (fun i => f i x)) ->
  linear (a + a') (b + b') (fun i => cbind (c i) f).
Proof.
  intros H K i. specialize (H i). case_count c i; cbn [cbind]; try nia.
  specialize (K x r). cbv beta in K. destruct (f r x) as [[] m]; nia.
Qed.
(** What has been paid for need not be paid for again. *)
Lemma paid_then {A B} a b a' b' (c : cparser A) (f : bytes -> A -> counted B) :
  paid a b c -> (forall x, linear a' b' (fun i => f i x)) ->
  linear (Nat.max a a') (b + b') (fun i => cbind (c i) f).
Proof.
  intros H K.
  apply (paid_mono _ _ (Nat.max a a') b) in H; try lia.
  assert (K' : forall x, linear (Nat.max a a') b' (fun i => f i x)).
  { intros x. apply (linear_mono a' b'); auto; lia. }
  revert H K'. generalize (Nat.max a a'). clear K a a'. intros a H K i.
  specialize (H i). case_count c i; cbn [cbind]; try nia.
  specialize (K x r). cbv beta in K. destruct (f r x) as [[] m]; nia.
Qed.
Lemma flat_ret {A} (x : A) : flat 0 (fun i => cret (Done i x)).
Proof. intros i; cbn [cret]. lia. Qed.
Lemma linear_ret {A} (x : A) : linear 0 0 (fun i => cret (Done i x)).
Proof. intros i; cbn [cret]. lia. Qed.
Lemma paid_ret {A} (x : A) : paid 0 0 (fun i => cret (Done i x)).
Proof. intros i; cbn [cret]. lia. Qed.

(** ** The combinators that only change the value *)
Definition same_cost {A B} (c : cparser A) (d : cparser B) : Prop :=
  forall i, match c i, d i with
            | (Done r _, n), (Done r' _, m) => r = r' /\ n = m
            | (Err, n), (Err, m) | (Incomplete, n), (Incomplete, m) | (OutOfFuel, n), (OutOfFuel, m) => n = m
            | _, _ => False
            end.
Lemma pmap_same {A B} (c : cparser A) (f : A -> B) : same_cost c (cpmap c f).
Proof. intros i. unfold cpmap. case_count c i; cbn [cbind cret]; auto; lia. Qed.
Lemma recognize_same {A} (c : cparser A) : same_cost c (crecognize c).
Proof. intros i. unfold crecognize. case_count c i; cbn [cbind cret]; auto; lia. Qed.
Lemma paid_same {A B} a b (c : cparser A) (d : cparser B) : same_cost c d -> paid a b c -> paid a b d.
Proof.
  intros S H i. specialize (S i). specialize (H i).
  case_count c i; destruct (d i) as [[] ?]; try contradiction; try (destruct S as (<- & <-)); subst; auto.
Qed.
Lemma cheap_same {A B} a b (c : cparser A) (d : cparser B) : same_cost c d -> cheap a b c -> cheap a b d.
Proof.
  intros S (H & K). split; [eapply paid_same; eauto |]. intros i. specialize (S i). specialize (K i).
  case_count c i; destruct (d i) as [[] ?]; try contradiction; subst; auto.
Qed.
Lemma prudent_same {A B} a b (c : cparser A) (d : cparser B) : same_cost c d -> prudent a b c -> prudent a b d.
Proof.
  intros S (H & K). split; [eapply cheap_same; eauto |]. intros i. specialize (S i). specialize (K i).
  case_count c i; destruct (d i) as [[] ?]; try contradiction; subst; auto.
Qed.
Lemma linear_same {A B} a b (c : cparser A) (d : cparser B) : same_cost c d -> linear a b c -> linear a b d.
Proof.
  intros S H i. specialize (S i). specialize (H i).
  case_count c i; destruct (d i) as [[] ?]; try contradiction; try (destruct S as (<- & <-)); subst; auto.
Qed.

(** ** Choices *)
Lemma prudent_opt {A} a b (c : cparser A) : prudent a b c -> prudent a b (copt c).
Proof.
  intros ((H & K1) & K2). unfold copt. repeat split; intros i; specialize (H i); specialize (K1 i);
    specialize (K2 i); case_count c i; auto; lia.
Qed.
Lemma linear_opt {A} a b (c : cparser A) : linear a b c -> linear a b (copt c).
Proof. intros H i. specialize (H i). unfold copt. case_count c i; auto; lia. Qed.
Lemma cheap_complete {A} a b (c : cparser A) : prudent a b c -> cheap a b (ccomplete c).
Proof.
  intros ((H & K1) & K2). unfold ccomplete. split; intros i; specialize (H i); specialize (K1 i);
    specialize (K2 i); case_count c i; auto; lia.
Qed.
Lemma prudent_complete {A} a b (c : cparser A) : prudent a b c -> prudent a b (ccomplete c).
Proof.
  intros H. split; [apply cheap_complete; auto |]. intros i. unfold ccomplete. case_count c i; auto.
Qed.
Lemma flat_complete {A} b (c : cparser A) : flat b c -> flat b (ccomplete c).
Proof. intros H i. specialize (H i). unfold ccomplete. case_count c i; auto. Qed.
Lemma linear_complete {A} a b (c : cparser A) : linear a b c -> linear a b (ccomplete c).
Proof. intros H i. specialize (H i). unfold ccomplete. case_count c i; auto. Qed.
Lemma flat_alt {A} b b' (c d : cparser A) : flat b c -> flat b' d -> flat (b + b') (calt c d).
Proof.
  intros H K i. specialize (H i). specialize (K i). unfold calt. case_count c i; try lia.
  case_count d i; lia.
Qed.
Lemma linear_alt {A} a b a' b' (c d : cparser A) : linear a b c -> linear a' b' d ->
  linear (a + a') (b + b') (calt c d).
Proof.
  intros H K i. specialize (H i). specialize (K i). unfold calt. case_count c i; try nia.
  case_count d i; nia.
Qed.
(** A cheap failure leaves the second alternative its own account. *)
Lemma paid_alt {A} a b a' b' (c d : cparser A) : cheap a b c -> paid a' b' d ->
  paid (Nat.max a a') (b + b') (calt c d).
Proof.
  intros (H & H2) K.
  apply (paid_mono _ _ (Nat.max a a') b) in H; try lia.
  apply (paid_mono _ _ (Nat.max a a') b') in K; try lia.
  revert H K. generalize (Nat.max a a'). clear a a'. intros a H K i.
  specialize (H i). specialize (H2 i). specialize (K i). unfold calt. case_count c i; try nia.
  case_count d i; nia.
Qed.
Lemma linear_alt_cheap {A} a b a' b' (c d : cparser A) : cheap a b c -> linear a' b' d ->
  linear (Nat.max a a') (b + b') (calt c d).
Proof.
  intros (H & H2) K. apply paid_linear in H.
  apply (linear_mono _ _ (Nat.max a a') b) in H; try lia.
  apply (linear_mono _ _ (Nat.max a a') b') in K; try lia.
  revert H K. generalize (Nat.max a a'). clear a a'. intros a H K i.
  specialize (H i). specialize (H2 i). specialize (K i). unfold calt. case_count c i; try nia.
  case_count d i; nia.
Qed.

(** ** Repetitions: every pass consumes something *)
Lemma many0_loop_paid {A} a b (c : cparser A) fuel : cheap a b c -> paid (a + b) b (cmany0_loop fuel c).
Proof.
  intros (H & H2). induction fuel as [| fuel IH]; intros i; cbn [cmany0_loop]; [nia |].
  destruct i as [| x0 i0]; [cbn [length]; lia |]. set (i := x0 :: i0) in *.
  specialize (H i). specialize (H2 i). case_count c i; try nia.
  destruct (Nat.eqb_spec (length r) (length i)); [nia |]. specialize (IH r).
  destruct (cmany0_loop fuel c r) as [[] m]; cbn [cbind cret]; nia.
Qed.
Lemma many0_loop_linear {A} a b (c : cparser A) fuel : paid a b c -> linear (a + b) b (cmany0_loop fuel c).
Proof.
  intros H. induction fuel as [| fuel IH]; intros i; cbn [cmany0_loop]; [nia |].
  destruct i as [| x0 i0]; [cbn [length]; lia |]. set (i := x0 :: i0) in *.
  specialize (H i). case_count c i; try nia.
  destruct (Nat.eqb_spec (length r) (length i)); [nia |]. specialize (IH r).
  destruct (cmany0_loop fuel c r) as [[] m]; cbn [cbind cret]; nia.
Qed.
Lemma linear_many0 {A} a b (c : cparser A) : paid a b c -> linear (a + b) b (cmany0 c).
Proof. intros H i. apply (many0_loop_linear a b c (S (length i)) H i). Qed.
Lemma sep_loop_paid {A B} s a b (sep : cparser A) (c : cparser B) fuel : flat s sep -> cheap a b c ->
  paid (a + b + s) (b + s) (csep_loop fuel sep c).
Proof.
  intros Hs (H & H2). induction fuel as [| fuel IH]; intros i; cbn [csep_loop]; [nia |].
  specialize (Hs i). case_count sep i; try nia.
  destruct (Nat.eqb_spec (length r) (length i)); [nia |].
  specialize (H r). specialize (H2 r). destruct (c r) as [[r2 x2 | | |] m]; try nia.
  destruct (Nat.eqb_spec (length r2) (length r)); [nia |]. specialize (IH r2).
  destruct (csep_loop fuel sep c r2) as [[] k]; cbn [cbind cret]; nia.
Qed.
Lemma sep_loop_linear {A B} s a b (sep : cparser A) (c : cparser B) fuel : flat s sep -> paid a b c ->
  linear (a + b + s) (b + s) (csep_loop fuel sep c).
Proof.
  intros Hs H. induction fuel as [| fuel IH]; intros i; cbn [csep_loop]; [nia |].
  specialize (Hs i). case_count sep i; try nia.
  destruct (Nat.eqb_spec (length r) (length i)); [nia |].
  specialize (H r). destruct (c r) as [[r2 x2 | | |] m]; try nia.
  destruct (Nat.eqb_spec (length r2) (length r)); [nia |]. specialize (IH r2).
  destruct (csep_loop fuel sep c r2) as [[] k]; cbn [cbind cret]; nia.
Qed.
Lemma sep_loop_no_err {A B} (sep : cparser A) (c : cparser B) fuel i n :
  csep_loop fuel sep c i <> (Err, n).
Proof.
  revert i n; induction fuel as [| fuel IH]; intros i n; cbn [csep_loop]; [discriminate |].
  case_count sep i; try discriminate. destruct (Nat.eqb _ _); try discriminate.
  destruct (c r) as [[r2 x2 | | |] m]; try discriminate. destruct (Nat.eqb _ _); try discriminate.
  specialize (IH r2). destruct (csep_loop fuel sep c r2) as [[] k]; cbn [cbind cret]; try discriminate.
  exfalso. eapply IH; eauto.
Qed.
Lemma cheap_nonempty {A B} s a b (sep : cparser A) (c : cparser B) : flat s sep -> cheap a b c ->
  cheap (a + b + s) (b + b + s) (cseparated_nonempty_list sep c).
Proof.
  intros Hs Hc. pose proof Hc as (H & H2). unfold cseparated_nonempty_list. split; intros i.
  - specialize (H i). case_count c i; cbn [cbind]; try nia.
    destruct (Nat.eqb_spec (length r) (length i)); cbn [cret]; [nia |].
    pose proof (sep_loop_paid s a b sep c (S (length r)) Hs Hc r) as L.
    destruct (csep_loop _ sep c r) as [[] k]; cbn [cbind cret]; nia.
  - specialize (H i). specialize (H2 i). case_count c i; cbn [cbind]; auto; try lia.
    destruct (Nat.eqb_spec (length r) (length i)) as [e |]; cbn [cret]; [rewrite e in H; lia |].
    pose proof (sep_loop_no_err sep c (S (length r)) r) as L.
    destruct (csep_loop _ sep c r) as [[] k]; cbn [cbind cret]; auto. exfalso. eapply L; eauto.
Qed.
Lemma linear_separated {A B} s a b (sep : cparser A) (c : cparser B) : flat s sep -> paid a b c ->
  linear (a + b + s) (b + b + s) (cseparated_list sep c).
Proof.
  intros Hs H i. unfold cseparated_list. pose proof (H i) as Hi. case_count c i; try nia.
  destruct (Nat.eqb_spec (length r) (length i)); [nia |].
  pose proof (sep_loop_linear s a b sep c (S (length r)) Hs H r) as L.
  destruct (csep_loop _ sep c r) as [[] k]; cbn [cbind cret]; nia.
Qed.

(** ** The parsers *)
Lemma label_prudent : prudent 1 2 clabel.
Proof.
  unfold clabel, cpreceded. apply (prudent_seq 1 1 1); [apply flat_one_of |]. intros _.
  apply prudent_opt, prudent_is_a.
Qed.
Lemma hostname_host_cheap : cheap 4 5 chostname_host.
Proof.
  unfold chostname_host, cseparated_nonempty_list_complete.
  eapply cheap_same; [apply pmap_same |]. eapply cheap_same; [apply recognize_same |].
  apply (cheap_nonempty 1 1 2).
  - apply flat_complete, (flat_tag (s2b ".")).
  - apply cheap_complete, label_prudent.
Qed.
(** An address literal is looked at twice at most: an [\[IPv6:] one that is not an address
    fails at the same bracket as the other alternative. *)
Lemma hostname_literal_paid : paid 4 10 (calt chostname_v6 chostname_v4).
Proof.
  intros i.
  assert (V4 : match chostname_v4 i with
               | (Done r _, n) => length r <= length i /\ n + 2 * length r <= 2 * length i + 3
               | (_, n) => n <= 2 * length i + 3 end).
  { unfold chostname_v4, cmap_res, cpreceded.
    pose proof (flat_tag (s2b "[") i) as T. change (length (s2b "[")) with 1 in T.
    destruct (ctag (s2b "[") i) as [[r x | | |] n]; cbn [cbind]; try lia.
    unfold ctake_until_and_consume. destruct (Nat.ltb _ _); cbn [cbind]; [lia |].
    destruct (find_sub_counted (s2b "]") r) as [[p |] m] eqn:F.
    - apply find_sub_count in F; [| discriminate]. change (length (s2b "]")) with 1 in *.
      cbn [cbind]. rewrite firstn_length. destruct (option_map _ _); rewrite ?skipn_length; lia.
    - apply find_sub_count_none in F. change (length (s2b "]")) with 1 in *. cbn [cbind]. lia. }
  unfold calt. destruct (chostname_v6 i) as [r6 n6] eqn:E6.
  unfold chostname_v6, cmap_res, cpreceded in E6.
  destruct (ctag (s2b "[IPv6:") i) as [[r x | | |] n] eqn:T.
  - (* the tag is there *)
    assert (exists j, i = s2b "[IPv6:" ++ j /\ r = j /\ n = 6) as (j & -> & -> & ->).
    { unfold ctag, ctag_with in T. destruct (compare_counted N.eqb i (s2b "[IPv6:")) as [cr k] eqn:C.
      destruct cr; try discriminate. injection T as <- _ <-.
      pose proof (compare_counted_ok _ _ _ _ C) as (-> & _).
      assert (P : prefixb (s2b "[IPv6:") i = true).
      { rewrite compare_prefixb, <- compare_agrees, C. reflexivity. }
      clear - P. revert P. change (s2b "[IPv6:") with [91; 73; 80; 118; 54; 58]%N.
      do 6 (destruct i as [| ? i]; [cbn; try discriminate; rewrite ?andb_false_r; discriminate |]).
      cbn [prefixb]. rewrite !andb_true_iff, !N.eqb_eq. intros (<- & <- & <- & <- & <- & <- & _).
      exists i. split; [reflexivity |]. split; reflexivity. }
    clear T. cbn [cbind] in E6. unfold ctake_until_and_consume in E6.
    destruct (find_sub_counted (s2b "]") j) as [[p |] m] eqn:F.
    + pose proof F as F'. apply find_sub_count in F'; [| discriminate].
      change (length (s2b "]")) with 1 in *.
      assert (Nat.ltb (length j) 1 = false) as L by (apply Nat.ltb_ge; lia). rewrite L in E6. cbn [cbind] in E6.
      rewrite firstn_length in E6.
      assert (V4' : match chostname_v4 (s2b "[IPv6:" ++ j) with
                    | (Done r _, n) => length r + p + 1 = length j /\ n <= 2 * p + 13
                    | (_, n) => n <= 2 * p + 13 end).
      { unfold chostname_v4, cmap_res, cpreceded.
        assert (T1 : ctag (s2b "[") (s2b "[IPv6:" ++ j) = (Done (s2b "IPv6:" ++ j) (s2b "["), 1))
          by reflexivity.
        rewrite T1. cbn [cbind]. unfold ctake_until_and_consume. rewrite app_length.
        change (length (s2b "IPv6:")) with 5. change (length (s2b "]")) with 1.
        replace (Nat.ltb (5 + length j) 1) with false by reflexivity.
        assert (F1 : find_sub_counted (s2b "]") (s2b "IPv6:" ++ j) = (Some (5 + p), 5 + m)).
        { change (s2b "IPv6:") with [73; 80; 118; 54; 58]%N. change (s2b "]") with [93]%N in *.
          cbn [app find_sub_counted compare_counted N.eqb Pos.eqb]. rewrite F. reflexivity. }
        rewrite F1. cbn [cbind]. rewrite firstn_length, app_length. change (length (s2b "IPv6:")) with 5.
        destruct (option_map Addr4 _); rewrite ?skipn_length, ?app_length; change (length (s2b "IPv6:")) with 5; lia. }
      rewrite app_length in *. change (length (s2b "[IPv6:")) with 6 in *.
      destruct (option_map Addr6 _); cbn [fst snd] in E6; injection E6 as <- <-.
      * rewrite skipn_length. lia.
      * destruct (chostname_v4 _) as [[] k]; lia.
    + pose proof F as F0. apply find_sub_count_none in F. change (length (s2b "]")) with 1 in *.
      assert (E6' : (r6 = Incomplete \/ r6 = Err) /\ n6 <= length j + 7).
      { destruct (Nat.ltb _ _); cbn [cbind] in E6; injection E6 as <- <-; split; auto; lia. }
      clear E6. destruct E6' as (R & L6). rewrite app_length in V4. rewrite app_length.
      change (length (s2b "[IPv6:")) with 6 in *.
      assert (V4' : forall r x k, chostname_v4 (s2b "[IPv6:" ++ j) <> (Done r x, k)).
      { intros r x' k. unfold chostname_v4, cmap_res, cpreceded.
        assert (T1 : ctag (s2b "[") (s2b "[IPv6:" ++ j) = (Done (s2b "IPv6:" ++ j) (s2b "["), 1))
          by reflexivity.
        rewrite T1. cbn [cbind]. unfold ctake_until_and_consume.
        destruct (Nat.ltb _ _); [discriminate |].
        assert (F1 : find_sub_counted (s2b "]") (s2b "IPv6:" ++ j) = (None, 5 + m)).
        { change (s2b "IPv6:") with [73; 80; 118; 54; 58]%N. change (s2b "]") with [93]%N in *.
          cbn [app find_sub_counted compare_counted N.eqb Pos.eqb]. rewrite F0. reflexivity. }
        rewrite F1. discriminate. }
      destruct R as [-> | ->]; [lia |].
      destruct (chostname_v4 _) as [[] k]; try lia. exfalso; eapply V4'; eauto.
  - cbn [cbind] in E6. injection E6 as <- <-. pose proof (flat_tag (s2b "[IPv6:") i) as K. rewrite T in K.
    change (length (s2b "[IPv6:")) with 6 in K. destruct (chostname_v4 i) as [[] k]; lia.
  - cbn [cbind] in E6. injection E6 as <- <-. pose proof (flat_tag (s2b "[IPv6:") i) as K. rewrite T in K.
    change (length (s2b "[IPv6:")) with 6 in K. lia.
  - cbn [cbind] in E6. injection E6 as <- <-. pose proof (flat_tag (s2b "[IPv6:") i) as K. rewrite T in K.
    change (length (s2b "[IPv6:")) with 6 in K. lia.
Qed.
Lemma hostname_paid : paid 4 15 chostname.
Proof.
  unfold chostname. eapply paid_mono; [apply paid_alt; [apply hostname_host_cheap | apply hostname_literal_paid] | ..];
    cbn; lia.
Qed.
Lemma dot_string_cheap : cheap 3 3 cdot_string.
Proof.
  unfold cdot_string, cseparated_nonempty_list_complete. eapply cheap_same; [apply recognize_same |].
  apply (cheap_nonempty 1 1 1).
  - apply flat_complete, (flat_tag (s2b ".")).
  - apply cheap_complete, prudent_is_a.
Qed.
Lemma verify_take_flat f : flat 1 (cverify (ctake 1) f).
Proof.
  unfold cverify. apply (flat_seq 0 1); [apply flat_take |]. intros x i. destruct (f x); lia.
Qed.
Lemma quoted_char_flat : flat 3 cquoted_char.
Proof.
  unfold cquoted_char. apply (flat_alt 2 1).
  - apply (flat_seq 1 1); [apply (flat_tag [BACKSLASH]) |]. intros _. apply verify_take_flat.
  - apply verify_take_flat.
Qed.
Lemma quoted_string_linear : linear 3 5 cquoted_string.
Proof.
  unfold cquoted_string. eapply linear_same; [apply recognize_same |].
  eapply linear_mono.
  - eapply paid_then; [apply flat_paid, (flat_tag [QUOTE]) |]. intros _.
    eapply (paid_then 3 3).
    + pose proof (many0_loop_paid 0 3 cquoted_char) as K. intros i.
      apply (K (S (length i))). apply prudent_cheap, flat_prudent, quoted_char_flat.
    + intros _. eapply linear_seq; [apply paid_linear, flat_paid, (flat_tag [QUOTE]) |]. intros _.
      apply linear_ret.
  - cbn. lia.
  - cbn. lia.
Qed.
Lemma email_linear : linear 10 24 cemail_p.
Proof.
  unfold cemail_p, clocalpart. eapply linear_mono.
  - eapply linear_seq.
    + eapply linear_alt; [apply quoted_string_linear | apply paid_linear, cheap_paid, dot_string_cheap].
    + intros l. eapply linear_seq.
      * apply linear_opt, linear_complete. unfold cpreceded.
        eapply paid_then; [apply flat_paid, (flat_tag (s2b "@")) |]. intros _. apply paid_linear, hostname_paid.
      * intros h. apply linear_ret.
  - cbn. lia.
  - cbn. lia.
Qed.
Lemma path_hop_paid : paid 4 16 cpath_hop.
Proof.
  unfold cpath_hop. eapply paid_mono.
  - eapply paid_seq; [apply flat_paid, (flat_tag (s2b "@")) |]. intros _.
    eapply paid_seq; [apply hostname_paid |]. intros _. apply paid_ret.
  - cbn; lia.
  - cbn; lia.
Qed.
Lemma address_in_path_linear : linear 31 58 caddress_in_path.
Proof.
  unfold caddress_in_path, cpreceded. eapply linear_mono.
  - eapply linear_seq.
    + apply linear_opt. unfold csource_route. eapply linear_seq.
      * apply (linear_separated 1 4 16); [apply (flat_tag (s2b ",")) | apply path_hop_paid].
      * intros _. eapply linear_seq; [apply paid_linear, flat_paid, (flat_tag (s2b ":")) |]. intros _. apply linear_ret.
    + intros _. apply email_linear.
  - cbn; lia.
  - cbn; lia.
Qed.
(** Without the brackets, a path that starts with one fails at once. *)
Lemma path_linear : linear 31 64 caddress_in_maybe_bracketed_path.
Proof.
  assert (B : linear 31 60 cbracketed_path).
  { unfold cbracketed_path. eapply linear_mono.
    - eapply paid_then; [apply flat_paid, (flat_tag (s2b "<")) |]. intros _.
      eapply linear_seq; [apply address_in_path_linear |]. intros a.
      eapply linear_seq; [apply paid_linear, flat_paid, (flat_tag (s2b ">")) |]. intros _. apply linear_ret.
    - cbn; lia.
    - cbn; lia. }
  intros i. unfold caddress_in_maybe_bracketed_path, calt. specialize (B i).
  assert (F : (exists j, i = 60%N :: j) \/ cbracketed_path i = (Err, 1) \/ cbracketed_path i = (Incomplete, 0)).
  { destruct i as [| c j]; [right; right; reflexivity |]. destruct (N.eqb_spec c 60) as [-> | NE]; [left; eauto |].
    right; left. unfold cbracketed_path, ctag, ctag_with. change (s2b "<") with [60%N].
    cbn [compare_counted]. destruct (N.eqb_spec c 60); [contradiction | reflexivity]. }
  destruct F as [(j & ->) | [-> | ->]].
  - assert (E : caddress_in_path (60%N :: j) = (Err, 4)) by reflexivity. rewrite E.
    destruct (cbracketed_path (60%N :: j)) as [[] n]; lia.
  - pose proof (address_in_path_linear i) as K. destruct (caddress_in_path i) as [[] m]; lia.
  - lia.
Qed.
Lemma parameters_linear : linear 7 6 cparse_parameters.
Proof.
  unfold cparse_parameters. eapply linear_same; [apply pmap_same |]. apply (linear_many0 1 6).
  unfold cparameter. eapply paid_mono.
  - eapply paid_seq; [apply flat_paid, flat_one_of |]. intros _.
    eapply paid_seq; [apply paid_eat |]. intros _.
    eapply paid_seq; [eapply paid_same; [apply recognize_same | apply label_prudent] |]. intros k.
    eapply paid_seq; [| intros v; apply paid_ret].
    apply (prudent_opt 1 2), prudent_complete. unfold cpreceded.
    apply (prudent_seq 1 1 1); [apply (flat_tag (s2b "=")) |]. intros _. apply prudent_is_a.
  - cbn; lia.
  - cbn; lia.
Qed.
Lemma bare_linear v c : linear 1 (length v + 3) (cbare_command v c).
Proof.
  unfold cbare_command. eapply linear_mono.
  - eapply paid_then; [apply flat_paid, flat_tag_no_case |]. intros _.
    eapply paid_then; [apply paid_eat |]. intros _.
    eapply paid_then; [apply flat_paid, flat_tag |]. intros _. apply linear_ret.
  - cbn; lia.
  - cbn; lia.
Qed.
Lemma hello_linear v mk : linear 4 (length v + 20) (chello_command v mk).
Proof.
  unfold chello_command. eapply linear_mono.
  - eapply paid_then; [apply paid_eat |]. intros _.
    eapply paid_then; [apply flat_paid, flat_tag_no_case |]. intros _.
    eapply paid_then; [apply paid_eat |]. intros _.
    eapply paid_then; [apply hostname_paid |]. intros d.
    eapply paid_then; [apply paid_eat |]. intros _.
    eapply paid_then; [apply flat_paid, flat_tag |]. intros _. apply linear_ret.
  - cbn; lia.
  - cbn; lia.
Qed.
Lemma string_linear v mk : linear 2 (length v + 5) (cstring_command v mk).
Proof.
  unfold cstring_command. eapply linear_mono.
  - eapply paid_then; [apply flat_paid, flat_tag_no_case |]. intros _.
    eapply paid_then; [apply flat_paid, flat_one_of |]. intros _.
    eapply paid_then; [apply (paid_until CRLF); discriminate |]. intros r.
    eapply paid_then; [apply flat_paid, flat_tag |]. intros _. apply linear_ret.
  - cbn; lia.
  - cbn; lia.
Qed.
Lemma opt_string_linear v mk : linear 2 (length v + 5) (copt_string_command v mk).
Proof.
  unfold copt_string_command. eapply linear_mono.
  - eapply paid_then; [apply flat_paid, flat_tag_no_case |]. intros _.
    eapply paid_then; [apply (prudent_opt 0 1), flat_prudent, flat_one_of |]. intros _.
    eapply paid_then; [apply (paid_until CRLF); discriminate |]. intros r.
    eapply paid_then; [apply flat_paid, flat_tag |]. intros _. apply linear_ret.
  - cbn; lia.
  - cbn; lia.
Qed.
Lemma rcpt_linear : linear 39 84 ccommand_rcpt_args.
Proof.
  unfold ccommand_rcpt_args. eapply linear_mono.
  - eapply paid_then; [apply flat_paid, flat_tag_no_case |]. intros _.
    eapply paid_then; [apply paid_eat |]. intros _.
    eapply linear_seq; [apply path_linear |]. intros a.
    eapply linear_seq; [apply parameters_linear |]. intros p.
    eapply paid_then; [apply paid_eat |]. intros _.
    eapply paid_then; [apply flat_paid, flat_tag |]. intros _. apply linear_ret.
  - cbn; lia.
  - cbn; lia.
Qed.
Lemma mail_linear : linear 39 90 ccommand_mail_args.
Proof.
  unfold ccommand_mail_args. eapply linear_mono.
  - eapply paid_then; [apply flat_paid, flat_tag_no_case |]. intros _.
    eapply paid_then; [apply paid_eat |]. intros _.
    eapply linear_seq.
    { unfold cmail_from. eapply linear_alt_cheap.
      - eapply cheap_same; [apply pmap_same |]. apply prudent_cheap, flat_prudent, flat_tag.
      - eapply linear_same; [apply pmap_same |]. apply path_linear. }
    intros a.
    eapply linear_seq; [apply parameters_linear |]. intros p.
    eapply paid_then; [apply paid_eat |]. intros _.
    eapply paid_then; [apply flat_paid, flat_tag |]. intros _. apply linear_ret.
  - cbn; lia.
  - cbn; lia.
Qed.
Lemma command_linear : linear 97 299 ccommand_p.
Proof.
  unfold ccommand_p. eapply linear_mono.
  - repeat (eapply linear_alt; [first [apply bare_linear | apply hello_linear | apply string_linear
       | apply opt_string_linear | apply mail_linear | apply rcpt_linear] |]). apply string_linear.
  - cbn; lia.
  - cbn; lia.
Qed.
Lemma reply_linear : linear 2 8 creply_p.
Proof.
  unfold creply_p. eapply linear_mono.
  - eapply (paid_then 0 4).
    { apply flat_paid. unfold cverify, cmap_res. apply (flat_seq 3 1).
      - intros i. unfold ctake, take, cret. destruct (Nat.leb_spec 3 (length i)); cbn [cbind]; [| lia].
        rewrite firstn_length. destruct (u16_from_str _); rewrite ?skipn_length; lia.
      - intros x i. destruct (_ <? _)%N; lia. }
    intros c. eapply paid_then.
    { eapply paid_same; [apply pmap_same |]. apply flat_paid.
      apply (flat_alt 1 1); [apply (flat_tag (s2b "-")) | apply (flat_tag (s2b " "))]. }
    intros l. eapply paid_then; [apply (paid_until_and_consume CRLF); discriminate |]. intros s. apply linear_ret.
  - cbn; lia.
  - cbn; lia.
Qed.
