(** C56: a server that implements only the required methods of [Config]. *)
From Verif Require Import Bytes Nom SmtpString Message Reply Stream SpecData DataProofs DataLines StreamProofs
  NomLemmas SpecReply ReplyProofs Interact PropGrammar InteractProofs SpecSession SpecExchange HandlerProofs
  SessionProofs TraceProofs ExchangeProofs LawfulProofs PropReply PropServer SpecDefault.

Lemma one_line code text d1 d2 d3 w : (1 <= length text <= 506)%nat -> (d1 < 10 -> d2 < 10 -> d3 < 10 ->
  code = 100 * d1 + 10 * d2 + d3 -> w = [48 + d1; 48 + d2; 48 + d3; 32] ++ text ++ CRLF ->
  full_reply code text [w])%N.
Proof.
  intros H H1 H2 H3 Hc ->. exists [text]. split; [now constructor|]. constructor.
  exists [48 + d1; 48 + d2; 48 + d3]%N. split; [|reflexivity].
  exists d1, d2, d3. repeat split; assumption.
Qed.
Lemma says_one {U} reply w (evs : list (obs U)) : full_reply (fst reply) (snd reply) [w] ->
  says reply evs <-> evs = [OWrite w].
Proof.
  intros H. split.
  - intros (ws & F & ->). now rewrite (C29_reply_unique _ _ _ _ F H).
  - intros ->. exists [w]. split; [exact H|reflexivity].
Qed.
Ltac literal a b c := apply (one_line _ _ a b c); [cbn; lia|reflexivity|reflexivity|reflexivity|reflexivity|reflexivity].
Lemma okay_wire : full_reply (fst default_okay) (snd default_okay) [okay_line].
Proof. literal 2%N 5%N 0%N. Qed.
Lemma bad_wire : full_reply (fst default_bad_sequence) (snd default_bad_sequence) [bad_sequence_line].
Proof. literal 5%N 0%N 3%N. Qed.
Lemma go_wire : full_reply START_MAIL_INPUT (s2b "Start mail input; end with <CRLF>.<CRLF>") [go_ahead_line].
Proof. literal 3%N 5%N 4%N. Qed.
Lemma unimplemented_wire : full_reply COMMAND_UNIMPLEMENTED (s2b "Command not implemented") [unimplemented_line].
Proof. literal 5%N 0%N 2%N. Qed.
Lemma unrecognized_wire : full_reply COMMAND_UNRECOGNIZED (s2b "Command not recognized") [unrecognized_line].
Proof. literal 5%N 0%N 0%N. Qed.

Section Default.
Context {C U : Type}.
Variable ff : C -> U -> option email -> decision * C * U * option email.
Variable ft : C -> U -> mail_meta -> email -> decision * C * U * mail_meta * email.
Variable hm : C -> U -> mail_meta -> handler C U.
Variable hostname : C -> bytes.
Notation cfg := (default_config ff ft hm hostname).

Lemma greeting_wire c : (length (hostname c) <= 492)%nat ->
  full_reply (fst (cf_welcome_banner cfg c)) (snd (cf_welcome_banner cfg c)) [greeting (hostname c)].
Proof.
  intros H. cbn [cf_welcome_banner default_config fst snd]. unfold smtp_add.
  apply (one_line _ _ 2 2 0)%N; [|reflexivity|reflexivity|reflexivity|reflexivity|].
  - rewrite !app_length. cbn. lia.
  - unfold greeting, a_line. rewrite <- !app_assoc. reflexivity.
Qed.

(** What the replies are, byte for byte. *)
Theorem C56_replies_are_these_bytes : forall c (evs : list (obs U)), (length (hostname c) <= 492)%nat ->
  (says (cf_welcome_banner cfg c) evs <-> evs = [OWrite (greeting (hostname c))])
  /\ (says (cf_mail_okay cfg c) evs <-> evs = [OWrite okay_line])
  /\ (says (cf_rcpt_okay cfg c) evs <-> evs = [OWrite okay_line])
  /\ (says (cf_data_okay cfg c) evs <-> evs = [OWrite go_ahead_line])
  /\ (says (cf_mail_accepted cfg c) evs <-> evs = [OWrite okay_line])
  /\ (says (cf_already_in_mail cfg c) evs <-> evs = [OWrite bad_sequence_line])
  /\ (says (cf_rcpt_before_mail cfg c) evs <-> evs = [OWrite bad_sequence_line])
  /\ (says (cf_data_before_rcpt cfg c) evs <-> evs = [OWrite bad_sequence_line])
  /\ (says (cf_data_before_mail cfg c) evs <-> evs = [OWrite bad_sequence_line])
  /\ (says (cf_command_unimplemented cfg c) evs <-> evs = [OWrite unimplemented_line])
  /\ (says (cf_command_unrecognized cfg c) evs <-> evs = [OWrite unrecognized_line]).
Proof.
  intros c evs H.
  repeat split; intros X;
  (eapply says_one; [|exact X]);
  first [now apply greeting_wire|exact okay_wire|exact go_wire|exact bad_wire|exact unimplemented_wire|exact unrecognized_wire].
Qed.

Lemma explained_nil : explained (@nil (obs U)).
Proof. intros pre b post E. destruct pre; discriminate. Qed.
Lemma explained_app (a b : list (obs U)) : explained a -> explained b -> explained (a ++ b).
Proof.
  intros Ha Hb pre w post E.
  assert (S : (exists l, pre = a ++ l /\ b = l ++ OWrite w :: post) \/ (exists l, a = pre ++ OWrite w :: l)).
  { clear Ha Hb. revert pre E. induction a as [|x a IH]; intros pre E.
    - left. exists pre. split; [reflexivity|exact E].
    - destruct pre as [|y pre].
      + right. exists a. cbn in *. congruence.
      + cbn in E. injection E as <- E. destruct (IH pre E) as [(l & -> & ->)|(l & ->)].
        * left. exists l. split; reflexivity.
        * right. exists l. reflexivity. }
  destruct S as [(l & -> & E')|(l & E')].
  - destruct (Hb _ _ _ E') as [V|(front & o & ws & ws' & code & msg & -> & A & F)]; [left; exact V|right].
    exists (a ++ front), o, ws, ws', code, msg. split; [now rewrite <- app_assoc|]. split; assumption.
  - exact (Ha _ _ _ E').
Qed.
Lemma explained_quiet (o : obs U) : (forall b, o <> OWrite b) -> explained [o].
Proof. intros H [|x pre] b post E; [injection E as E _; now apply H in E|destruct pre; discriminate]. Qed.
Lemma explained_word b : vocabulary b -> explained [@OWrite U b].
Proof. intros V [|x pre] b' post E; [injection E as <- _; now left|destruct pre; discriminate]. Qed.
Lemma explained_refusal (o : obs U) code msg w : asked o code msg -> says (code, msg) w -> explained (o :: w).
Proof.
  intros A (ws & F & ->) pre b post E. right.
  destruct pre as [|x pre]; [injection E as E _; subst o; destruct A|]. injection E as <- E.
  assert (S : exists l l', pre = map OWrite l /\ ws = l ++ b :: l').
  { clear F. revert pre E. induction ws as [|y ws IH]; intros pre E; [destruct pre; discriminate|].
    destruct pre as [|z pre].
    - exists [], ws. split; [reflexivity|]. cbn in *. congruence.
    - cbn in E. injection E as <- E. destruct (IH _ E) as (l & l' & -> & ->). exists (y :: l), l'. split; reflexivity. }
  destruct S as (l & l' & -> & ->). exists [], o, l, l', code, msg. repeat split; assumption.
Qed.
Lemma says_word reply w (evs : list (obs U)) : full_reply (fst reply) (snd reply) [w] -> vocabulary w ->
  says reply evs -> explained evs.
Proof. intros F V S. apply (says_one _ _ _ F) in S. subst evs. now apply explained_word. Qed.
Ltac word := eapply says_word; [| |eassumption];
  [first [exact okay_wire|exact go_wire|exact bad_wire|exact unimplemented_wire|exact unrecognized_wire]
  |unfold vocabulary; cbn [In]; auto 7].
Ltac quiet := apply explained_quiet; discriminate.
Lemma reacts_explained s line evs s' : reacts cfg s line evs s' -> explained evs.
Proof.
  intros R. destruct R; try word.
  - apply (explained_app [_; _]); [apply (explained_app [_] [_]); quiet|word].
  - apply (explained_app [_] (_ :: w)); [quiet|]. eapply explained_refusal; [reflexivity|eassumption].
  - apply explained_app; [quiet|word].
  - eapply explained_refusal; [reflexivity|eassumption].
  - eapply explained_refusal; [reflexivity|eassumption].
Qed.
Lemma opens_explained s line evs c u m : opens cfg s line evs c u m -> explained evs.
Proof. intros O. destruct O. apply explained_app; [quiet|word]. Qed.
Lemma delivers_explained c u m text ok evs s : delivers cfg c u m text ok evs s -> explained evs.
Proof.
  intros D. destruct D as [c u m text ok [|code msg] c' u' w Y S].
  - apply explained_app; [quiet|word].
  - eapply explained_refusal; [reflexivity|eassumption].
Qed.
Lemma dialogue_explained s incoming evs s' : dialogue cfg s incoming evs s' -> explained evs.
Proof.
  intros D. induction D; [apply explained_nil|..]; repeat apply explained_app;
    eauto using reacts_explained, opens_explained, delivers_explained.
Qed.
End Default.
Print Assumptions C56_replies_are_these_bytes.

Lemma decent_check : forall r, (fst r <? 1000)%N && (N.of_nat (length (snd r)) + 506 <=? 18446744073709551616)%N
    && forallb (fun c => (c =? 9)%N || ((32 <=? c)%N && (c <=? 126)%N)) (snd r) = true -> decent r.
Proof.
  intros r H. rewrite !andb_true_iff, N.ltb_lt, N.leb_le in H. destruct H as [[H1 H2] H3].
  split; [split; assumption|]. rewrite forallb_forall in H3. apply Forall_forall. intros x Hx. apply H3 in Hx.
  unfold printable. rewrite orb_true_iff, andb_true_iff, N.eqb_eq, !N.leb_le in Hx. exact Hx.
Qed.
Lemma decent_replies {C U} ff ft hm (hostname : C -> bytes) : @decent_server C U ff ft hm hostname ->
  all_replies decent (default_config ff ft hm hostname).
Proof.
  intros [dc_from0 dc_to0 dc_mail0 dc_drains0 dc_name0]. constructor; intros; [|apply decent_check; vm_compute; reflexivity..|apply dc_from0|apply dc_to0|exact I|apply dc_mail0].
  - cbn [cf_welcome_banner default_config]. destruct (dc_name0 c) as [H1 H2]. split; [split|].
    + reflexivity.
    + cbn [snd]. unfold smtp_add. rewrite !app_length. cbn. lia.
    + unfold printable_reply. cbn [snd]. unfold smtp_add. rewrite <- app_assoc. apply Forall_app. split; [exact H1|].
      exact (proj2 (decent_check (0, s2b " Service ready")%N eq_refl)).
Qed.

(** Any session of such a server, with any writer: it does not panic; it greets
    with its name; after that every line it writes is one of five, or belongs to
    the refusal its own code has just asked for. *)
Theorem C56_minimal_server : forall C U W ff ft hm hostname (wr : writer W) src w (c : C) (u : U) o s,
  decent_server ff ft hm hostname ->
  interact (default_config ff ft hm hostname) wr src w c u = (o, s) ->
  (o = Ret tt \/ o = WriteErr)
  /\ (reliable wr -> o = Ret tt)
  /\ (o = Ret tt -> exists evs, st_trace s = OWrite (greeting (hostname c)) :: evs /\ explained evs).
Proof.
  intros C U W ff ft hm hostname wr src w c u o s H E.
  pose proof (decent_replies _ _ _ _ H) as R.
  assert (D : drain_mail (default_config ff ft hm hostname)) by (intros c0 u0 m0; apply (dc_drains _ _ _ _ H)).
  split; [|split].
  - exact (C35_no_panic _ _ _ _ _ _ _ _ _ _ _ R D E).
  - intros Hw. exact (C35_success _ _ _ _ _ _ _ _ _ _ _ R D Hw E).
  - intros ->. destruct (C33_session_is_the_dialogue _ _ _ _ _ _ _ _ _ _
      (all_replies_impl _ _ _ (fun r X => proj1 X) R) D E) as (b & evs & -> & Sb & Di & _).
    exists evs. split; [|now apply dialogue_explained in Di].
    apply (says_one _ _ _ (greeting_wire ff ft hm hostname c (proj2 (dc_name _ _ _ _ H c)))) in Sb. now subst b.
Qed.
Print Assumptions C56_minimal_server.
(** A server with one required method doing something: it refuses one sender, and
    takes all mails. *)
Definition small_from (c u : unit) (f : option email) : decision * unit * unit * option email :=
  match f with Some (Email l _) => (if beq l (s2b "bad") then Reject 550 (s2b "go away") else Accept, c, u, f)
             | None => (Accept, c, u, f) end.
Definition small_to (c u : unit) (m : mail_meta) (t : email) : decision * unit * unit * mail_meta * email := (Accept, c, u, m, t).
Definition small_mail (c u : unit) (m : mail_meta) : handler unit unit :=
  HRead (fun _ => false) (fun _ _ => HComplete (fun ok => HDone (if ok then Accept else Reject 554 (s2b "cut")) c u)).
Example C56_hypotheses : decent_server small_from small_to small_mail (fun _ => s2b "mx.example.org").
Proof.
  constructor.
  - intros c u [[l d]|]; [|exact I]. unfold small_from. destruct (beq l (s2b "bad")); [apply decent_check; vm_compute; reflexivity|exact I].
  - intros. exact I.
  - intros c u m items over ok. destruct ok; [exact I|apply decent_check; vm_compute; reflexivity].
  - intros c u m. constructor; [discriminate|]. intros items. eexists. split; [reflexivity|]. intros ok. do 3 eexists. reflexivity.
  - intros c. split; [|cbn; lia]. exact (proj2 (decent_check (0, s2b "mx.example.org")%N eq_refl)).
Qed.
Example C56_example :
  flat_map (fun o => match o with OWrite b => [b] | _ => [] end)
    (st_trace (snd (interact (default_config small_from small_to small_mail (fun _ => s2b "mx.example.org")) all_ok
       (src_of [Chunk (a_line "mail from:<bad@x.org>" ++ a_line "RCPT TO:<a@x.org>"); Chunk (a_line "HELO x" ++ a_line "MAIL FROM:<>");
                Chunk (a_line "RCPT TO:<a@x.org>" ++ a_line "DATA" ++ a_line "hi" ++ a_line "." ++ a_line "WAT?")]) tt tt tt)))
  = [a_line "220 mx.example.org Service ready"; a_line "550 go away"; bad_sequence_line; unimplemented_line;
     okay_line; okay_line; go_ahead_line; okay_line; unrecognized_line].
Proof. vm_compute. reflexivity. Qed.
(** A longer name is cut over two lines. *)
Example C56_long_name : forall ff ft hm,
  ~ @says unit (cf_welcome_banner (@default_config unit unit ff ft hm (fun _ => repeat 97%N 493)) tt) [OWrite (greeting (repeat 97%N 493))].
Proof.
  intros ff ft hm (ws & (ts & Hc & Hl) & E). apply (f_equal (@length _)) in E. rewrite map_length in E. cbn [length] in E.
  assert (length ts = 1)%nat as L.
  { destruct ws as [|w [|? ?]]; try discriminate. inversion Hl; [reflexivity|].
    match goal with X : reply_lines _ (_ :: _) [] |- _ => inversion X end. }
  assert (X : forall s (l : list bytes), chunked 506 s l -> length l = 1%nat -> (length s <= 506)%nat).
  { intros s l X. destruct X as [|p [? ?]|p s ps H1 H2 X]; [discriminate|lia|]. destruct X; [congruence|discriminate..]. }
  apply X in Hc; [|exact L]. cbn [snd cf_welcome_banner default_config] in Hc. unfold smtp_add in Hc.
  rewrite !app_length, repeat_length in Hc. cbn in Hc. lia.
Qed.
