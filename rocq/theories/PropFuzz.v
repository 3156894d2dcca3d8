(** Properties C50-C51: the project's fuzz targets never crash. *)
From Verif Require Import Bytes Nom SmtpString Message Reply Stream SpecData SpecReply Interact SpecSession.
From Verif Require Import NomLemmas StreamProofs DataProofs DataLines FuzzProofs Fuzz FuzzInteract PropGrammar PropServer LawfulProofs.

(** ** C50 *)
(** The assertion of fuzz_data_parser.rs holds for every list of packets: the
    decoder and the project's naive decoder agree, none of them panicking. *)
Theorem C50_data_target_never_fails : forall data, fuzz_data_parser data = true.
Proof.
  intros data. unfold fuzz_data_parser. rewrite stream_dec, naive_dec. apply result_eqb_refl.
Qed.
Print Assumptions C50_data_target_never_fails.
Theorem C50_agreement : forall data, exists r,
  stream_result data = Some r /\ naive_result (concat data) = Some r.
Proof. intros data. rewrite stream_dec, naive_dec. eauto. Qed.
Print Assumptions C50_agreement.
(** The naive decoder is the line-by-line specification. *)
Theorem C50_naive_is_transfer : forall raw out rest,
  naive_result raw = Some (Some (out, rest)) <-> transfer raw out rest.
Proof.
  intros raw out rest. rewrite naive_dec. split.
  - intros H. apply dec_transfer. destruct (dec CrLfPassed raw) as [o [x|]]; cbn in H; congruence.
  - intros H. apply dec_transfer in H. now rewrite H.
Qed.
Print Assumptions C50_naive_is_transfer.
(** The assertion can fail: it tells apart different results. *)
Example C50_assertion_is_strict : forall a b, result_eqb a b = true -> a = b.
Proof. exact result_eqb_eq. Qed.
Example C50_example :
  let data := [s2b "a" ++ [CR]; LF :: DOT :: [DOT]; s2b "b" ++ CRLF; [DOT; CR]; LF :: s2b "QUIT"] in
  stream_result data = Some (Some (s2b "a" ++ CRLF ++ s2b ".b" ++ CRLF, s2b "QUIT"))
  /\ naive_result (concat data) = Some (Some (s2b "a" ++ CRLF ++ s2b ".b" ++ CRLF, s2b "QUIT")).
Proof. vm_compute. split; reflexivity. Qed.

(** ** C51 *)
Lemma fuzz_good : forall r, (fst r <? 1000)%N && (N.of_nat (length (snd r)) + 506 <=? 18446744073709551616)%N
    && forallb (fun c => (c =? 9)%N || ((32 <=? c)%N && (c <=? 126)%N)) (snd r) = true ->
  sendable_reply r /\ printable_reply r.
Proof.
  intros r H. rewrite !andb_true_iff, N.ltb_lt, N.leb_le in H. destruct H as [[H1 H2] H3].
  split; [split; assumption|]. rewrite forallb_forall in H3. apply Forall_forall. intros x Hx. apply H3 in Hx.
  unfold printable. rewrite orb_true_iff, andb_true_iff, N.eqb_eq, !N.leb_le in Hx. exact Hx.
Qed.
Lemma fuzz_replies : all_replies (fun r => sendable_reply r /\ printable_reply r) fuzz_config.
Proof.
  constructor; intros; try (apply fuzz_good; vm_compute; reflexivity).
  - cbn. unfold fuzz_filter_from. destruct f as [e|]; [|exact I]. destruct (email_localpart e) as [loc|]; [|exact I].
    destruct (fuzz_likes loc); [exact I|]. apply fuzz_good. vm_compute. reflexivity.
  - cbn. unfold fuzz_filter_to. destruct (email_localpart t) as [loc|]; [|exact I].
    destruct (fuzz_likes loc); [exact I|]. apply fuzz_good. vm_compute. reflexivity.
  - exact I.
  - cbn [cf_handle_mail fuzz_config default_config fuzz_handle_mail handler_replies]. intros.
    destruct (Nat.ltb 3 (length (mm_to m))); [|exact I]. apply fuzz_good. vm_compute. reflexivity.
Qed.
Lemma fuzz_drain : drain_mail fuzz_config.
Proof.
  intros c u m. cbn. constructor; [discriminate|]. intros items. eexists. split; [reflexivity|].
  intros ok. do 3 eexists. reflexivity.
Qed.
Lemma fuzz_calm s incoming evs s' : dialogue fuzz_config s incoming evs s' -> se_u s = false -> se_u s' = false.
Proof.
  assert (Hr : forall s line evs s', reacts fuzz_config s line evs s' -> se_u s = false -> se_u s' = false).
  { intros x line e y R. destruct R; cbn [se_u]; intros Hu; subst; auto.
    - match goal with P : command_parse _ = _, F : cf_filter_from _ _ _ _ = _ |- _ =>
        pose proof (fun e m => C20_localpart_of_command _ _ e m P) as K; cbn in F; unfold fuzz_filter_from in F end.
      destruct f as [e|]; [|congruence].
      destruct (K e ps (or_introl eq_refl)) as (loc & El & _). rewrite El in *. congruence.
    - match goal with P : command_parse _ = _, F : cf_filter_from _ _ _ _ = _ |- _ =>
        pose proof (fun e m => C20_localpart_of_command _ _ e m P) as K; cbn in F; unfold fuzz_filter_from in F end.
      destruct f as [e|]; [|congruence].
      destruct (K e ps (or_introl eq_refl)) as (loc & El & _). rewrite El in *. congruence.
    - match goal with P : command_parse _ = _, F : cf_filter_to _ _ _ _ _ = _ |- _ =>
        pose proof (fun e m => C20_localpart_of_command _ _ e m P) as K; cbn in F; unfold fuzz_filter_to in F end.
      destruct (K t ps (or_intror eq_refl)) as (loc & El & _). rewrite El in *. congruence.
    - match goal with P : command_parse _ = _, F : cf_filter_to _ _ _ _ _ = _ |- _ =>
        pose proof (fun e m => C20_localpart_of_command _ _ e m P) as K; cbn in F; unfold fuzz_filter_to in F end.
      destruct (K t ps (or_intror eq_refl)) as (loc & El & _). rewrite El in *. congruence.
    - match goal with F : cf_filter_data _ _ _ _ = _ |- _ => cbn in F; congruence end. }
  assert (Ho : forall s line evs c u m, opens fuzz_config s line evs c u m -> se_u s = false -> u = false).
  { intros x line e c u m O. destruct O; cbn [se_u]; intros Hu; subst.
    match goal with F : cf_filter_data _ _ _ _ = _ |- _ => cbn in F; congruence end. }
  assert (Hd : forall c u m text ok evs s, delivers fuzz_config c u m text ok evs s -> u = false -> se_u s = false).
  { intros c u m text ok e x D Hu. subst u. destruct D as [? ? ? ? ? ? ? ? ? Y _]. cbn [se_u].
    cbn in Y. unfold fuzz_handle_mail in Y. inversion Y; subst; [discriminate|].
    match goal with X : HComplete _ = HComplete _ |- _ => injection X as <- end.
    match goal with X : HDone _ _ _ = HDone _ _ _ |- _ => injection X; congruence end. }
  intros D. induction D; intros Hu; eauto.
Qed.

(** The session of the fuzz target, for every list of packets: no panic in the
    crate, and none in the [localpart()] calls of the filters. *)
Theorem C51_session_ends : forall data, exists s,
  interact fuzz_config discard (src_of (map Chunk data)) tt tt false = (Ret tt, s) /\ st_user s = false.
Proof.
  intros data.
  destruct (interact fuzz_config discard (src_of (map Chunk data)) tt tt false) as [o s] eqn:E.
  assert (Ho : o = Ret tt).
  { eapply C35_success; [exact fuzz_replies|exact fuzz_drain| |exact E]. repeat split. }
  subst o. exists s. split; [reflexivity|].
  destruct (C33_session_is_the_dialogue _ _ _ _ _ _ _ _ _ _
     (all_replies_impl fuzz_config _ _ (fun r H => proj1 H) fuzz_replies) fuzz_drain E) as (_ & evs & _ & _ & D & _).
  now apply fuzz_calm in D.
Qed.
Theorem C51_interact_target_never_fails : forall data, fuzz_interact data = true.
Proof. intros data. unfold fuzz_interact. destruct (C51_session_ends data) as (s & -> & ->). reflexivity. Qed.
Print Assumptions C51_session_ends.
Print Assumptions C51_interact_target_never_fails.
(** The session does go through: envelope, message, verdicts of the filters. *)
Example C51_example :
  let data := [s2b "MAIL FROM:<ba@x.yz>"; CRLF; s2b "RCPT TO:<""\z\""x""@x.yz>" ++ CRLF ++ s2b "RCPT TO:<ab@x.yz>" ++ CRLF;
               s2b "DATA" ++ CRLF ++ s2b "hi" ++ CRLF ++ [DOT] ++ CRLF] in
  map (fun o => match o with OTo _ _ a d _ _ _ => match d with Accept => 1 | _ => 2 end | OHandle _ _ _ _ _ => 3 | _ => 0 end)
    (st_trace (snd (interact fuzz_config discard (src_of (map Chunk data)) tt tt false)))
  = [0; 0; 0; 0; 1; 0; 2; 0; 0; 0; 3; 0].
Proof. vm_compute. reflexivity. Qed.
(** Whom the filters like: [locb[0] > locb[1]]; and at most three recipients. *)
Example C51_likes : map (fun l => fuzz_likes (s2b l)) ["ba"; "ab"; "aa"; "b"; ""; "cab"]%string = [true; false; false; false; false; true].
Proof. reflexivity. Qed.
Example C51_recipients : map (fun n => match fuzz_handle_mail tt false (Meta None (repeat (Email (s2b "g") None) n)) with
  | HRead _ f => match f [] true with HComplete g => match g true with HDone Accept _ _ => 1 | HDone _ _ _ => 2 | _ => 0 end | _ => 0 end | _ => 0 end) [2; 3; 4]
  = [1; 1; 2].
Proof. reflexivity. Qed.
(** The flag is needed: [localpart()] panics on some addresses, none of which
    the parser returns. *)
Example C51_flag_meaningful : exists a, snd (fst (fuzz_filter_from tt false (Some a))) = true.
Proof. exists (Email [] None). reflexivity. Qed.

(** The other two targets: the parsers answer on every input. *)
Theorem C51_parser_targets_never_fail : forall data,
  command_parse data <> POutOfFuel /\ reply_parse data <> POutOfFuel.
Proof.
  intros data. split; [apply C14_always_terminates|].
  assert (F : reply_p data <> OutOfFuel).
  { unfold reply_p. apply bind_fuel.
    { unfold reply_code_p, verify, map_res, take. destruct (Nat.leb 3 (length data)); [|discriminate].
      cbn [bind]. destruct (u16_from_str _) as [x|]; [|discriminate]. cbn [bind]. destruct (x <? 1000)%N; discriminate. }
    intros r code _. apply bind_fuel.
    { unfold reply_last_p, pmap. apply bind_fuel; [apply alt_fuel; apply tag_fuel|]. intros; discriminate. }
    intros r' last _. apply bind_fuel; [apply take_until_and_consume_fuel|]. intros; discriminate. }
  unfold reply_parse, nom_to_result. destruct (reply_p data) as [rest x| | |]; try discriminate; [|congruence].
  destruct rest; discriminate.
Qed.
Print Assumptions C51_parser_targets_never_fail.
