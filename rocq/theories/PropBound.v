(** Property C78: what a client can make the server do is bounded by what it sends. *)
From Verif Require Import Bytes Nom SmtpString Message Reply Stream SpecData DataProofs DataLines SinkProofs StreamProofs
  PropData SpecGrammar CommandProofs RoundTrip SpecReply ReplyProofs Interact RepoSessions PropGrammar InteractProofs SpecSession
  SpecExchange HandlerProofs SessionProofs TraceProofs ExchangeProofs LawfulProofs SimProofs PropServer SpecE2E PropE2E SpecRelay PropRelay PropReply SpecDefault PropDefault
  SinkFuture SpecPrompt Async AsyncUser SpecAsync SpecUser AsyncProofs AsyncContract PropAsync PropAsyncSink AsyncUserProofs AsyncUserFlush PropUser SpecBound.
Notation lawful := SpecRelay.lawful.

Lemma crlfs_app a b : crlfs a + crlfs b <= crlfs (a ++ b).
Proof.
  induction a as [|x a IH]; [cbn; lia|]. destruct a as [|y a]; cbn [app].
  - cbn [app crlfs] in *. destruct b; cbn [crlfs]; lia.
  - change (crlfs (x :: y :: a)) with ((if (x =? CR)%N && (y =? LF)%N then 1 else 0) + crlfs (y :: a)).
    change (crlfs (x :: y :: a ++ b)) with ((if (x =? CR)%N && (y =? LF)%N then 1 else 0) + crlfs (y :: a ++ b)).
    cbn [app] in IH. lia.
Qed.
Lemma crlfs_line line rest : 1 + crlfs rest <= crlfs (line ++ CRLF ++ rest).
Proof.
  pose proof (crlfs_app line (CRLF ++ rest)). pose proof (crlfs_app CRLF rest). change (crlfs CRLF) with 1 in *. lia.
Qed.
Lemma crlfs_transfer wire text rest : transfer wire text rest -> 1 + crlfs rest <= crlfs wire.
Proof.
  intros (ls & _ & _ & -> & _). pose proof (crlfs_app (unlines ls) ((end_line ++ CRLF) ++ rest)).
  pose proof (crlfs_line end_line rest). rewrite <- app_assoc in *. lia.
Qed.

Lemma how_app {U} f (a b : list (obs U)) : how_many f (a ++ b) = how_many f a + how_many f b.
Proof. unfold how_many. now rewrite filter_app, app_length. Qed.
Lemma how_writes {U} f (w : list (obs U)) reply : (forall b, f (OWrite b) = false) -> says reply w -> how_many f w = 0.
Proof. intros H (ws & _ & ->). unfold how_many. induction ws as [|x ws IH]; cbn; [reflexivity|]. now rewrite H. Qed.
Lemma items_app {U} (a b : list (obs U)) : written_items (a ++ b) = written_items a ++ written_items b.
Proof. apply flat_map_app. Qed.
Lemma items_says {U} reply (w : list (obs U)) : says reply w -> full_reply (fst reply) (snd reply) (written_items w).
Proof. intros (ws & H & ->). replace (written_items (map OWrite ws)) with ws; [exact H|]. clear. induction ws as [|x ws IH]; cbn; [reflexivity|now f_equal]. Qed.
Lemma lines_app rs rs' ws ws' : lines_of_replies rs ws -> lines_of_replies rs' ws' -> lines_of_replies (rs ++ rs') (ws ++ ws').
Proof.
  intros (x & H1 & ->) (y & H2 & ->). exists (x ++ y). split; [now apply Forall2_app|now rewrite concat_app].
Qed.

Section Bound.
Context {C U : Type}.
Variable cfg : config C U.
Variable P : N * bytes -> Prop.
Hypothesis AR : all_replies P cfg.

Lemma one_line reply (w : list (obs U)) : P reply -> says reply w ->
  exists rs, length rs = 1 /\ Forall P rs /\ lines_of_replies rs (written_items w).
Proof.
  intros Hp H. exists [reply]. split; [reflexivity|]. split; [now repeat constructor|].
  exists [written_items w]. split; [constructor; [now apply items_says|constructor]|]. cbn. now rewrite app_nil_r.
Qed.

Lemma reacts_bound s line evs s1 : reacts cfg s line evs s1 ->
  how_many is_call evs <= 1 /\ how_many is_filter evs <= 1 /\ how_many is_handle evs = 0 /\ how_many is_new_mail evs <= 1
  /\ exists rs, length rs = 1 /\ Forall P rs /\ lines_of_replies rs (written_items evs).
Proof.
  intros R. destruct R; rewrite ?how_app, ?items_app;
    match goal with S : says _ ?w |- _ =>
      rewrite (how_writes is_call w _ (fun _ => eq_refl) S), (how_writes is_filter w _ (fun _ => eq_refl) S),
              (how_writes is_handle w _ (fun _ => eq_refl) S), (how_writes is_new_mail w _ (fun _ => eq_refl) S);
      cbn [how_many filter is_call is_filter is_handle is_new_mail length written_items flat_map app];
      (split; [lia|]); (split; [lia|]); (split; [lia|]); (split; [lia|]); refine (one_line _ _ _ S) end;
    try apply AR.
  - pose proof (ar_from _ _ AR (cf_new_mail cfg c) u f) as X. now rewrite H0 in X.
  - pose proof (ar_to _ _ AR c u m t) as X. now rewrite H0 in X.
  - pose proof (ar_filter_data _ _ AR c u m) as X. now rewrite H1 in X.
Qed.
Lemma opens_bound s line evs c u m : opens cfg s line evs c u m ->
  how_many is_call evs = 1 /\ how_many is_filter evs = 1 /\ how_many is_handle evs = 0 /\ how_many is_new_mail evs = 0
  /\ exists rs, length rs = 1 /\ Forall P rs /\ lines_of_replies rs (written_items evs).
Proof.
  intros R. destruct R. rewrite ?how_app, ?items_app.
  rewrite (how_writes is_call w _ (fun _ => eq_refl) H2), (how_writes is_filter w _ (fun _ => eq_refl) H2),
          (how_writes is_handle w _ (fun _ => eq_refl) H2), (how_writes is_new_mail w _ (fun _ => eq_refl) H2).
  repeat split. refine (one_line _ _ _ H2). apply AR.
Qed.
Lemma yields_reply (h : handler C U) text ok d c u : yields h text ok (d, c, u) -> handler_replies P h -> on_refusal P d.
Proof.
  intros Y. remember (d, c, u) as r eqn:E. revert E. induction Y as [stop f items text ok r Hs Y IH|stop f items ok g d' c' u' Hf Hg]; intros E H.
  - apply IH; [exact E|apply H].
  - injection E as -> -> ->. specialize (H items true). rewrite Hf in H. specialize (H ok). now rewrite Hg in H.
Qed.
Lemma delivers_bound c u m text ok evs s1 : delivers cfg c u m text ok evs s1 ->
  how_many is_call evs = 1 /\ how_many is_filter evs = 0 /\ how_many is_handle evs = 1 /\ how_many is_new_mail evs = 0
  /\ exists rs, length rs = 1 /\ Forall P rs /\ lines_of_replies rs (written_items evs).
Proof.
  intros R. destruct R as [c u m text ok d c' u' w Y S]. rewrite ?how_app, ?items_app.
  rewrite (how_writes is_call w _ (fun _ => eq_refl) S), (how_writes is_filter w _ (fun _ => eq_refl) S),
          (how_writes is_handle w _ (fun _ => eq_refl) S), (how_writes is_new_mail w _ (fun _ => eq_refl) S).
  repeat split. refine (one_line _ _ _ S). pose proof (yields_reply _ _ _ _ _ _ Y (ar_handle _ _ AR c u m)) as X.
  destruct d; [apply AR|exact X].
Qed.

Lemma dialogue_bound s b evs s2 : dialogue cfg s b evs s2 ->
  how_many is_call evs <= 1 + crlfs b /\ how_many is_filter evs <= crlfs b /\ how_many is_handle evs <= crlfs b
  /\ how_many is_new_mail evs <= crlfs b
  /\ exists rs, length rs <= 1 + crlfs b /\ Forall P rs /\ lines_of_replies rs (written_items evs).
Proof.
  induction 1 as [s tail Ht|s line rest evs s1 tr s2 Hl R D IH|s line wire evs c u m text rest evs' s1 tr s2 Hl O T Dl D IH
    |s line wire evs c u m text evs' s1 Hl O T Dl].
  - cbn. repeat split; try lia. exists []. split; [cbn; lia|]. split; [constructor|]. exists []. split; constructor.
  - destruct (reacts_bound _ _ _ _ R) as (A1 & A2 & A3 & A4 & rs & L1 & F1 & W1). destruct IH as (B1 & B2 & B3 & B4 & rs' & L2 & F2 & W2).
    pose proof (crlfs_line line rest). rewrite !how_app, items_app. split; [lia|]. split; [lia|]. split; [lia|]. split; [lia|].
    exists (rs ++ rs'). rewrite app_length. split; [lia|]. split; [now apply Forall_app|now apply lines_app].
  - destruct (opens_bound _ _ _ _ _ _ O) as (A1 & A2 & A3 & A4 & rs & L1 & F1 & W1). destruct IH as (B1 & B2 & B3 & B4 & rs' & L2 & F2 & W2).
    destruct (delivers_bound _ _ _ _ _ _ _ Dl) as (D1 & D2 & D3 & D4 & rs2 & L3 & F3 & W3).
    pose proof (crlfs_line line wire). pose proof (crlfs_transfer _ _ _ T).
    rewrite !how_app, !items_app. split; [lia|]. split; [lia|]. split; [lia|]. split; [lia|].
    exists (rs ++ rs2 ++ rs'). rewrite !app_length. split; [lia|]. split; [repeat (apply Forall_app; split); auto|]. apply lines_app; [exact W1|now apply lines_app].
  - destruct (opens_bound _ _ _ _ _ _ O) as (A1 & A2 & A3 & A4 & rs & L1 & F1 & W1).
    destruct (delivers_bound _ _ _ _ _ _ _ Dl) as (D1 & D2 & D3 & D4 & rs2 & L3 & F3 & W3).
    pose proof (crlfs_line line wire).
    rewrite !how_app, !items_app. split; [lia|]. split; [lia|]. split; [lia|]. split; [lia|].
    exists (rs ++ rs2). rewrite !app_length. split; [lia|]. split; [apply Forall_app; split; auto|]. now apply lines_app.
Qed.

(** ** Recipients *)
Hypothesis KM : keeps_meta cfg.
Lemma reacts_recipients s line evs s1 : reacts cfg s line evs s1 ->
  (forall u1 m data cs v, ~ In (OHandle u1 m data cs v) evs)
  /\ match se_tx s1 with
     | None => True
     | Some m1 => match se_tx s with
       | None => mm_to m1 = []
       | Some m0 => length (mm_to m1) <= 1 + length (mm_to m0) end
     end.
Proof.
  assert (NW : forall reply (w : list (obs U)) o, says reply w -> In o w -> exists b, o = OWrite b).
  { intros reply w o (ws & _ & ->) Hi. apply in_map_iff in Hi. destruct Hi as (b & <- & _). eauto. }
  intros R. split.
  - intros u1 m1 data cs v Hi. destruct R; repeat (apply in_app_or in Hi; destruct Hi as [Hi|Hi]);
      match goal with
      | S : says _ ?w, X : In _ ?w |- _ => destruct (NW _ _ _ S X) as (b & E); discriminate E
      | _ => cbn [In] in Hi; repeat destruct Hi as [Hi|Hi]; try discriminate Hi; try contradiction
      end.
  - destruct KM as [K1 K2]. destruct R; cbn [se_tx]; auto; try lia.
    + match goal with X : cf_filter_to _ _ _ _ _ = _ |- _ => pose proof (K1 c u m t) as E; rewrite X in E; cbn [fst snd] in E; subst end.
      cbn [mm_to]. rewrite app_length. cbn [length]. lia.
    + match goal with X : cf_filter_to _ _ _ _ _ = _ |- _ => pose proof (K1 c u m t) as E; rewrite X in E; cbn [fst snd] in E; subst end. lia.
    + match goal with X : cf_filter_data _ _ _ _ = _ |- _ => pose proof (K2 c u m) as E; rewrite X in E; cbn [fst snd] in E; subst end. lia.
    + destruct tx; auto.
    + destruct tx; auto.
Qed.
Lemma dialogue_recipients s b evs s2 : dialogue cfg s b evs s2 ->
  forall u1 m data cs v, In (OHandle u1 m data cs v) evs ->
  match se_tx s with None => 2 + length (mm_to m) <= crlfs b | Some m0 => 1 + length (mm_to m) <= length (mm_to m0) + crlfs b end.
Proof.
  assert (NW : forall reply (w : list (obs U)) o, says reply w -> In o w -> exists b, o = OWrite b).
  { intros reply w o (ws & _ & ->) Hi. apply in_map_iff in Hi. destruct Hi as (b0 & <- & _). eauto. }
  assert (OP : forall s line evs c u m u1 m1 data cs v, opens cfg s line evs c u m -> ~ In (OHandle u1 m1 data cs v) evs /\ se_tx s = Some m).
  { intros s0 l0 e0 c0 u0 m0 u1 m1 data cs v O. destruct O. split.
    - intros [Hi|Hi]; [discriminate Hi|]. match goal with S : says _ w |- _ => destruct (NW _ _ _ S Hi) as (b0 & E); discriminate E end.
    - destruct KM as [_ K2]. pose proof (K2 c u m) as E. match goal with X : cf_filter_data _ _ _ _ = _ |- _ => rewrite X in E end. cbn in *. now subst. }
  assert (DL : forall c u m text ok evs s1 u1 m1 data cs v, delivers cfg c u m text ok evs s1 -> In (OHandle u1 m1 data cs v) evs -> m1 = m).
  { intros c0 u0 m0 t0 k0 e0 s0 u1 m1 data cs v Dl Hi. destruct Dl. destruct Hi as [Hi|Hi]; [congruence|].
    match goal with S : says _ w |- _ => destruct (NW _ _ _ S Hi) as (b0 & E); discriminate E end. }
  induction 1 as [s tail Ht|s line rest evs s1 tr s2 Hl R D IH|s line wire evs c u m text rest evs' s1 tr s2 Hl O T Dl D IH
    |s line wire evs c u m text evs' s1 Hl O T Dl]; intros u1 m1 data cs v Hi.
  - destruct Hi.
  - destruct (reacts_recipients _ _ _ _ R) as [N1 N2]. apply in_app_or in Hi. destruct Hi as [Hi|Hi]; [now apply N1 in Hi|].
    specialize (IH _ _ _ _ _ Hi). pose proof (crlfs_line line rest).
    destruct (se_tx s1) as [m'|], (se_tx s) as [m0|]; try rewrite N2 in *; cbn [length] in *; lia.
  - destruct (OP _ _ _ _ _ _ u1 m1 data cs v O) as [N1 E]. rewrite E. pose proof (crlfs_line line wire). pose proof (crlfs_transfer _ _ _ T).
    apply in_app_or in Hi. destruct Hi as [Hi|Hi]; [now apply N1 in Hi|]. apply in_app_or in Hi. destruct Hi as [Hi|Hi].
    + apply (DL _ _ _ _ _ _ _ _ _ _ _ _ Dl) in Hi. subst. lia.
    + specialize (IH _ _ _ _ _ Hi). destruct Dl. cbn [se_tx] in IH. lia.
  - destruct (OP _ _ _ _ _ _ u1 m1 data cs v O) as [N1 E]. rewrite E. pose proof (crlfs_line line wire).
    apply in_app_or in Hi. destruct Hi as [Hi|Hi]; [now apply N1 in Hi|].
    apply (DL _ _ _ _ _ _ _ _ _ _ _ _ Dl) in Hi. subst. lia.
Qed.
End Bound.

(** Whatever the writer does, a session is a beginning of a dialogue. *)
Lemma beginning_of_dialogue {C U W} (cfg : config C U) (wr : writer W) src w c u o s :
  lawful cfg -> interact cfg wr src w c u = (o, s) ->
  exists more banner evs s2, st_trace s ++ more = banner ++ evs /\ says (cf_welcome_banner cfg c) banner
  /\ dialogue cfg (Sess c u None) (src_bytes src) evs s2 /\ (o = Ret tt -> more = []).
Proof.
  intros [DM AP] In. destruct (interact cfg test_writer src tt c u) as [o' s'] eqn:In'.
  assert (RW : reliable test_writer) by (repeat split).
  pose proof (C35_success _ _ _ _ _ _ _ _ _ _ _ AP DM RW In') as ->.
  destruct (C33_session_is_the_dialogue _ _ _ _ _ _ _ _ _ _ (all_replies_impl cfg _ _ (fun r H => proj1 H) AP) DM In')
    as (b & evs0 & E0 & B & D & _).
  destruct (C35_no_panic _ _ _ _ _ _ _ _ _ _ _ AP DM In) as [-> | ->].
  - destruct (C37_otherwise_same _ _ _ _ _ _ _ _ _ _ _ _ _ _ _ _ RW In ltac:(discriminate) In') as [_ E].
    exists [], b, evs0. eexists. rewrite app_nil_r, <- E. eauto.
  - destruct (C37_writer_failure _ _ _ _ _ _ _ _ _ _ _ _ _ _ _ RW In In') as [more E].
    exists more, b, evs0. eexists. rewrite <- E. split; [exact E0|]. split; [exact B|]. split; [exact D|discriminate].
Qed.

(** With [n] CRLFs a client gets at most [n + 2] replies: one for each line, the
    greeting, and the verdict on a message that is cut; at most [n] calls of the
    filters, [n] of [handle_mail], and one more than [n] in all. *)
Theorem C78_bounded : forall C U W (cfg : config C U) (wr : writer W) (P : N * bytes -> Prop) src w c u o s,
  lawful cfg -> all_replies P cfg ->
  interact cfg wr src w c u = (o, s) ->
  let n := crlfs (src_bytes src) in
  how_many is_filter (st_trace s) <= n /\ how_many is_handle (st_trace s) <= n /\ how_many is_call (st_trace s) <= 1 + n
  /\ how_many is_new_mail (st_trace s) <= n
  /\ exists replies lines more, length replies <= 2 + n /\ Forall P replies /\ lines_of_replies replies lines
     /\ lines = written_items (st_trace s) ++ more /\ (o = Ret tt -> more = []).
Proof.
  intros C U W cfg wr P src w c u o s L AR In n. destruct (beginning_of_dialogue _ _ _ _ _ _ _ _ L In) as (more & b & evs & s2 & E & B & D & Hm).
  destruct (dialogue_bound cfg P AR _ _ _ _ D) as (A1 & A2 & A3 & A4 & rs & L1 & F1 & W1). fold n in A1, A2, A3, A4, L1.
  assert (X : forall f, (forall x, f (OWrite x) = false) -> how_many f (st_trace s) <= how_many f evs).
  { intros f Hf. pose proof (f_equal (how_many f) E) as X. rewrite !how_app, (how_writes f b _ Hf B) in X. lia. }
  pose proof (X is_filter (fun _ => eq_refl)). pose proof (X is_handle (fun _ => eq_refl)).
  pose proof (X is_call (fun _ => eq_refl)). pose proof (X is_new_mail (fun _ => eq_refl)).
  split; [lia|]. split; [lia|]. split; [lia|]. split; [lia|].
  destruct (one_line (U := U) P _ _ (ar_banner _ _ AR c) B) as (rb & L2 & F2 & W2).
  exists (rb ++ rs), (written_items (b ++ evs)), (written_items more). rewrite app_length. split; [lia|]. split; [now apply Forall_app|].
  rewrite items_app. split; [now apply lines_app|]. split; [rewrite <- items_app, <- E; apply items_app|].
  intros Ho. now rewrite (Hm Ho).
Qed.

(** So with replies of at most [k] bytes the server writes at most [k * (n + 2)] bytes. *)
Theorem C78_bytes : forall C U W (cfg : config C U) (wr : writer W) k src w c u o s,
  lawful cfg -> all_replies (fits k) cfg ->
  interact cfg wr src w c u = (o, s) ->
  length (concat (written_items (st_trace s))) <= k * (2 + crlfs (src_bytes src)).
Proof.
  intros C U W cfg wr k src w c u o s L AR In.
  destruct (C78_bounded _ _ _ _ _ _ _ _ _ _ _ _ L AR In) as (_ & _ & _ & _ & rs & ls & more & Hl & F & (wss & F2 & ->) & E & _).
  assert (X : length (concat (concat wss)) <= k * length rs).
  { clear -F F2. induction F2 as [|r x rs wss Hx F2 IH]; [cbn; lia|]. inversion F as [|? ? Fx Fr]; subst. specialize (IH Fr). specialize (Fx _ Hx).
    cbn [concat length]. rewrite concat_app, app_length. nia. }
  rewrite E, concat_app, app_length in X. nia.
Qed.

(** The number of recipients of a mail is bounded only by the number of lines. *)
Theorem C78_recipients : forall C U W (cfg : config C U) (wr : writer W) src w c u o s u1 m data cs v,
  lawful cfg -> keeps_meta cfg ->
  interact cfg wr src w c u = (o, s) -> In (OHandle u1 m data cs v) (st_trace s) ->
  2 + length (mm_to m) <= crlfs (src_bytes src).
Proof.
  intros C U W cfg wr src w c u o s u1 m data cs v L KM In Hi.
  destruct (beginning_of_dialogue _ _ _ _ _ _ _ _ L In) as (more & b & evs & s2 & E & B & D & _).
  assert (Hj : List.In (OHandle u1 m data cs v) (b ++ evs)) by (rewrite <- E; apply in_or_app; now left).
  apply in_app_or in Hj. destruct Hj as [Hj|Hj].
  - destruct B as (ws & _ & ->). apply in_map_iff in Hj. destruct Hj as (x & X & _). discriminate X.
  - exact (dialogue_recipients cfg KM _ _ _ _ D _ _ _ _ _ Hj).
Qed.

(** ** How long a reply is *)
Theorem C78_fits : forall j code text, length text <= 506 * j -> fits (512 * j) (code, text).
Proof.
  intros j code text H ws F. cbn [fst snd] in F. destruct (C29_reply_shape _ _ _ F) as (H1 & _ & H3 & _).
  assert (length ws <= j) as Hj by lia. clear -H3 Hj.
  assert (length (concat ws) <= 512 * length ws); [|lia]. clear Hj. induction H3 as [|x ws Hx _ IH]; [cbn; lia|].
  cbn [concat length]. rewrite app_length. lia.
Qed.
Theorem C78_default_bytes : forall C U W ff ft hm hostname (wr : writer W) src w (c : C) (u : U) o s,
  decent_server ff ft hm hostname ->
  (forall c u f, on_refusal (fun r => length (snd r) <= 506) (fst (fst (fst (ff c u f))))) ->
  (forall c u m t, on_refusal (fun r => length (snd r) <= 506) (fst (fst (fst (fst (ft c u m t)))))) ->
  (forall c u m, handler_replies (fun r => length (snd r) <= 506) (hm c u m)) ->
  interact (default_config ff ft hm hostname) wr src w c u = (o, s) ->
  length (concat (written_items (st_trace s))) <= 512 * (2 + crlfs (src_bytes src)).
Proof.
  intros C U W ff ft hm hostname wr src w c u o s DC H1 H2 H3 In.
  pose proof (decent_replies ff ft hm hostname DC) as AP.
  refine (C78_bytes _ _ _ (default_config ff ft hm hostname) _ _ _ _ _ _ _ _ (conj (dc_drains _ _ _ _ DC) AP) _ In).
  refine (all_replies_impl _ (fun r => length (snd r) <= 506) _ _ _); [intros [code text] Hr; exact (C78_fits 1 code text Hr)|].
  constructor; intros; try (vm_compute; lia); auto.
  - cbn. unfold smtp_add. rewrite !app_length. pose proof (proj2 (dc_name _ _ _ _ DC c0)). cbn. lia.
Qed.

(** ** The bounds are met *)
Theorem C78_amplification : forall C U W ff ft hm hostname (wr : writer W) evs w (c : C) (u : U) o s n,
  decent_server ff ft hm hostname -> reliable wr -> carries evs (concat (repeat CRLF n)) ->
  interact (default_config ff ft hm hostname) wr (src_of evs) w c u = (o, s) ->
  o = Ret tt /\ st_trace s = OWrite (greeting (hostname c)) :: repeat (OWrite unrecognized_line) n.
Proof.
  intros C U W ff ft hm hostname wr evs w c u o s n DC RW Ca In.
  pose proof (decent_replies ff ft hm hostname DC) as AP. pose proof (dc_drains _ _ _ _ DC) as DM.
  pose proof (C35_success _ _ _ _ _ _ _ _ _ _ _ AP DM RW In) as ->. split; [reflexivity|].
  destruct (C33_session_is_the_dialogue _ _ _ _ _ _ _ _ _ _ (all_replies_impl _ _ _ (fun r H => proj1 H) AP) DM In)
    as (b & evs0 & E0 & B & D & _).
  change (src_bytes (src_of evs)) with (concat (map ev_bytes evs)) in D. unfold carries in Ca. rewrite Ca in D. rewrite E0. clear E0 In Ca.
  apply (C56_replies_are_these_bytes ff ft hm hostname c b (proj2 (dc_name _ _ _ _ DC c))) in B. subst b. cbn [app]. f_equal.
  remember (Sess c u None) as s0 eqn:Es0. clear Es0. revert evs0 s0 D. induction n as [|n IH]; intros evs0 s0 D.
  - cbn in D. apply dialogue_is_line in D; [now destruct D as [-> _]|]. intros (a & d & X). destruct a; discriminate X.
  - cbn [repeat concat] in D. change (CRLF ++ concat (repeat CRLF n)) with (@nil BinNums.N ++ CRLF ++ concat (repeat CRLF n)) in D.
    assert (NP : forall cmd, command_parse ([] ++ CRLF) <> POk cmd) by (intros cmd; assert (T : command_parse ([] ++ CRLF) = PParseError) by (vm_compute; reflexivity); rewrite T; discriminate).
    apply dialogue_line in D; [|intros (a & d & X); destruct a; discriminate X].
    destruct D as [(e1 & s1 & tr & R & D & ->)|[(e1 & c1 & u1 & m1 & t1 & r1 & e2 & s1 & tr & O & _)|(e1 & c1 & u1 & m1 & t1 & e2 & O & _)]].
    + cbn [repeat]. rewrite (IH _ _ D). clear IH D. destruct R;
        try match goal with X : command_parse _ = POk ?k |- _ => exfalso; exact (NP k X) end.
      apply (says_one (cf_command_unrecognized (default_config ff ft hm hostname) c0) _ _ unrecognized_wire) in H0. now subst w0.
    + exfalso. destruct O as [? ? ? ? ? ? ? ? X]. exact (NP _ X).
    + exfalso. destruct O as [? ? ? ? ? ? ? ? X]. exact (NP _ X).
Qed.

(** There is no limit on recipients: every server that accepts takes a mail to [n]. *)
Definition one_recipient : bytes := s2b "RCPT TO:<g>" ++ CRLF.
Definition many_recipients (n : nat) : bytes :=
  (s2b "MAIL FROM:<>" ++ CRLF) ++ concat (repeat one_recipient n) ++ (s2b "DATA" ++ CRLF) ++ s2b "." ++ CRLF.
Theorem C78_no_limit : forall C U W (cfg : config C U) (wr : writer W) evs w c u o s n,
  accepting cfg -> lawful cfg -> reliable wr -> 0 < n -> carries evs (many_recipients n) ->
  interact cfg wr (src_of evs) w c u = (o, s) ->
  o = Ret tt /\ accepted_mails (st_trace s) = [(None, repeat (an_email "g") n, [])].
Proof.
  intros C U W cfg wr evs w c u o s n A [DM AP] RW Hn Ca In.
  set (tos := repeat (an_email "g", [] : parameters) n).
  assert (CS : client_sends (JMail None [] tos []) (many_recipients n)).
  { unfold many_recipients. replace (concat (repeat one_recipient n)) with (concat (map (fun t => command_send (Rcpt (fst t) (snd t))) tos)).
    - refine (cs_mail None [] tos [] sink_accept sink_new [s2b "." ++ CRLF] _ _ _ eq_refl _).
      + apply wf_by_parsing. vm_compute. reflexivity.
      + unfold tos. destruct n; [lia|discriminate].
      + unfold tos. apply Forall_forall. intros x Hx. apply repeat_spec in Hx. subst x. apply wf_by_parsing. vm_compute. reflexivity.
      + vm_compute. reflexivity.
    - unfold tos. clear. induction n as [|n IH]; [reflexivity|]. cbn [repeat map concat]. rewrite IH. f_equal. }
  destruct (C40_delivery _ _ _ _ _ [JMail None [] tos []] [many_recipients n] evs w c u o s A DM AP RW) as (H1 & H2 & _).
  { repeat constructor. exact CS. } { cbn [concat]. rewrite app_nil_r. exact Ca. } { exact In. }
  split; [exact H1|].
  assert (AS : asked_to_send [(None, repeat (an_email "g") n, [])] [JMail None [] tos []]).
  { replace (repeat (an_email "g") n) with (map fst tos) by (unfold tos; clear; induction n as [|n IH]; [reflexivity|]; cbn [repeat map fst]; now f_equal). apply (as_mail None [] tos []). constructor. }
  pose proof (asked_delivered _ _ AS _ H2) as F. inversion F as [|? y ? ys [E1 Nm] F']; subst. inversion F'; subst. destruct y as [[y1 y2] y3].
  cbn [fst snd] in *. injection E1 as -> ->. do 2 f_equal. eapply C07_normalised_unique; [exact Nm|]. left. auto.
Qed.

(** ** Any user code, at any moment *)
Theorem C78_any_user_code : forall C U K (P : N * bytes -> Prop) (ac : aconfig C U) (ks : @ksink K) incoming k0 c u m r x,
  SpecUser.lawful (fun r => (sendable_reply r /\ printable_reply r) /\ P r) ac ->
  polled m ac ks incoming k0 c u = (r, x) ->
  let n := crlfs (src_bytes incoming) in
  how_many is_filter (trace_of x) <= n /\ how_many is_handle (trace_of x) <= n /\ how_many is_call (trace_of x) <= 1 + n
  /\ how_many is_new_mail (trace_of x) <= n
  /\ exists replies lines more, length replies <= 2 + n /\ Forall P replies /\ lines_of_replies replies lines
     /\ lines = sent (calls x) ++ more.
Proof.
  intros C U K P ac ks incoming k0 c u m r x L E n.
  pose proof (proj1 (C70_any_user_code _ _ _ _ _ _ _ _ _ _ _ _ E)) as Ew.
  destruct (C70_lawful_user_code _ _ _ _ _ _ _ _ _ _ _ _ _ L E) as (cfg & answers & AR & DM & _ & _ & M).
  specialize (M [] []). apply matches_beginning in M. destruct M as [rest M].
  destruct (interact cfg replay incoming _ _ u) as [o s] eqn:In. cbn [snd] in M.
  destruct (C78_bounded _ _ _ cfg _ P _ _ _ _ _ _ (conj DM (all_replies_impl cfg _ _ (fun r H => proj1 H) AR)) (all_replies_impl cfg _ _ (fun r H => proj2 H) AR) In)
    as (A1 & A2 & A3 & A4 & rs & ls & more & B1 & B2 & B3 & B4 & _). fold n in A1, A2, A3, A4, B1.
  rewrite M, !how_app in *. split; [lia|]. split; [lia|]. split; [lia|]. split; [lia|].
  exists rs, ls, (written_items rest ++ more). split; [exact B1|]. split; [exact B2|]. split; [exact B3|].
  rewrite B4, items_app, <- app_assoc. f_equal. now rewrite <- Ew.
Qed.

(** ** The bounds cannot be smaller: a message that is cut after three lines *)
Definition cut_wire : bytes := s2b "MAIL FROM:<>" ++ CRLF ++ one_recipient ++ s2b "DATA" ++ CRLF.
Example C78_example :
  let r := interact open_config test_writer (src_of [Chunk cut_wire]) tt [] tt in
  fst r = Ret tt /\ crlfs cut_wire = 3
  /\ how_many is_filter (st_trace (snd r)) = 3 /\ how_many is_call (st_trace (snd r)) = 4
  /\ length (written_items (st_trace (snd r))) = 5
  /\ map (fun m => length (mm_to (fst (fst (fst m))))) (mails_given (st_trace (snd r))) = [1].
Proof. vm_compute. repeat split. Qed.
Example C78_hypotheses : lawful open_config /\ accepting open_config /\ keeps_meta open_config /\ all_replies (fits 512) open_config.
Proof.
  split; [split; [exact open_drain|exact open_replies]|]. split; [exact open_accepting|].
  split; [split; reflexivity|].
  refine (all_replies_impl _ (fun r => length (snd r) <= 506) _ _ _); [intros [code text] Hr; exact (C78_fits 1 code text Hr)|].
  constructor; intros; try (vm_compute; lia); try exact Logic.I.
  cbn. intros items over [|]; cbn; [exact Logic.I|vm_compute; lia].
Qed.
Print Assumptions C78_bounded.
Print Assumptions C78_bytes.
Print Assumptions C78_recipients.
Print Assumptions C78_fits.
Print Assumptions C78_default_bytes.
Print Assumptions C78_amplification.
Print Assumptions C78_no_limit.
Print Assumptions C78_any_user_code.
