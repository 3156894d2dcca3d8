(** Property C77: client and server agree on what was delivered. *)
From Verif Require Import Bytes Nom SmtpString Message Reply Stream SpecData DataProofs DataLines SinkProofs StreamProofs
  PropData SpecGrammar CommandProofs RoundTrip SpecReply ReplyProofs Interact RepoSessions PropGrammar InteractProofs SpecSession
  SpecExchange HandlerProofs SessionProofs TraceProofs ExchangeProofs LawfulProofs SimProofs PropServer SpecE2E PropE2E SpecRelay PropRelay SpecAgree.

(** ** Reading replies *)
Lemma digits_line ds code : three_digits code ds -> exists x y z, ds = [x; y; z] /\ x <> CR /\ y <> CR /\ z <> CR /\ (x <> LF /\ y <> LF /\ z <> LF).
Proof.
  intros (a & b & c & Ha & Hb & Hc & _ & ->). do 3 eexists. split; [reflexivity|]. unfold CR, LF. lia.
Qed.
Lemma is_line_cons x l : x <> CR -> is_line l -> is_line (x :: l).
Proof.
  intros Hx Hl (p & v & E). destruct p as [|y p]; [injection E as -> _; now apply Hx|].
  injection E as -> E. apply Hl. exists p, v. exact E.
Qed.
Lemma wire_line code last t w : reply_on_wire code last t w -> is_line t -> exists l, w = l ++ CRLF /\ is_line l
  /\ exists ds, three_digits code ds /\ l = ds ++ [if last then 32%N else 45%N] ++ t.
Proof.
  intros (ds & D & ->) Ht. exists (ds ++ [if last then 32%N else 45%N] ++ t). split; [now rewrite <- !app_assoc|].
  split; [|eauto]. destruct (digits_line _ _ D) as (x & y & z & -> & H1 & H2 & H3 & _). cbn [app].
  repeat apply is_line_cons; auto. destruct last; discriminate.
Qed.
Lemma digits_fun code code' ds : three_digits code ds -> three_digits code' ds -> code = code'.
Proof.
  intros (a & b & c & _ & _ & _ & -> & ->) (a' & b' & c' & _ & _ & _ & -> & E). assert (48 + a = 48 + a' /\ 48 + b = 48 + b' /\ 48 + c = 48 + c')%N by (repeat split; congruence). lia.
Qed.
Lemma digits_app code code' ds ds' x y : three_digits code ds -> three_digits code' ds' -> ds ++ x = ds' ++ y ->
  code = code' /\ x = y.
Proof.
  intros D D' E. pose proof D as (a & b & c & _ & _ & _ & _ & Ed). pose proof D' as (a' & b' & c' & _ & _ & _ & _ & Ed').
  assert (ds = ds' /\ x = y) as [<- <-] by (subst; cbn [app] in E; injection E; intros; subst; split; congruence).
  split; [eapply digits_fun; eauto|reflexivity].
Qed.
Lemma reply_first code ts ws : reply_lines code ts ws -> Forall is_line ts ->
  forall code' ts' ws' x y, reply_lines code' ts' ws' -> Forall is_line ts' -> ts <> [] -> ts' <> [] ->
  concat ws ++ x = concat ws' ++ y -> code = code' /\ ws = ws' /\ x = y.
Proof.
  induction 1 as [|t w Hw|t t1 ts w ws Hw Hr IH]; intros F code' ts' ws' x y H' F' N1 N2 E; [contradiction| |].
  - pose proof (Forall_inv F) as F1; pose proof (Forall_inv_tail F) as F2. destruct (wire_line _ _ _ _ Hw F1) as (l & -> & Hl & ds & D & Lq).
    destruct H' as [|t' w' Hw'|t' t1' ts' w' ws' Hw' Hr']; [contradiction| |];
      pose proof (Forall_inv F') as F1'; pose proof (Forall_inv_tail F') as F2'; destruct (wire_line _ _ _ _ Hw' F1') as (l' & -> & Hl' & ds' & D' & Lq');
      cbn [concat] in E; rewrite ?app_nil_r, <- ?app_assoc in E; apply first_crlf_unique in E; auto; destruct E as [El Ex].
    + rewrite El in Lq. rewrite Lq in Lq'. rewrite El. apply (digits_app _ _ _ _ _ _ D D') in Lq'. destruct Lq' as [-> _]. auto.
    + rewrite El in Lq. rewrite Lq in Lq'. apply (digits_app _ _ _ _ _ _ D D') in Lq'. destruct Lq' as [_ Q]. discriminate Q.
  - pose proof (Forall_inv F) as F1; pose proof (Forall_inv_tail F) as F2. destruct (wire_line _ _ _ _ Hw F1) as (l & -> & Hl & ds & D & Lq).
    destruct H' as [|t' w' Hw'|t' t1' ts' w' ws' Hw' Hr']; [contradiction| |];
      pose proof (Forall_inv F') as F1'; pose proof (Forall_inv_tail F') as F2'; destruct (wire_line _ _ _ _ Hw' F1') as (l' & -> & Hl' & ds' & D' & Lq');
      cbn [concat] in E; rewrite ?app_nil_r, <- ?app_assoc in E; apply first_crlf_unique in E; auto; destruct E as [El Ex].
    + rewrite El in Lq. rewrite Lq in Lq'. apply (digits_app _ _ _ _ _ _ D D') in Lq'. destruct Lq' as [_ Q]. discriminate Q.
    + destruct (IH F2 code' (t1' :: ts') ws' x y) as (-> & -> & ->); auto; try discriminate. rewrite El. auto.
Qed.
Lemma reply_some code ts ws : reply_lines code ts ws -> ts <> [] -> exists ws0 w, ws = ws0 ++ [w] /\ w <> [].
Proof.
  induction 1 as [|t w Hw|t t1 ts w ws Hw Hr IH]; intros Hn; [contradiction| |].
  - exists [], w. split; [reflexivity|]. destruct Hw as (ds & _ & ->). destruct ds; discriminate.
  - destruct IH as (ws0 & w0 & -> & H0); [discriminate|]. exists (w :: ws0), w0. auto.
Qed.
Lemma full_reply_is code text ws : full_reply code text ws -> text <> [] -> Forall SpecReply.printable text ->
  exists ts, ts <> [] /\ Forall is_line ts /\ reply_lines code ts ws.
Proof.
  intros (ts & Hc & Hr) Hn Hp. exists ts.
  assert (Forall is_line ts /\ (text <> [] -> ts <> [])) as [H1 H2]; [|auto].
  clear Hr Hn. induction Hc as [|p Hl|p s ps Hl Hs Hc IH].
  - split; [constructor|auto].
  - split; [|discriminate]. constructor; [|constructor]. intros (a & b & ->).
    apply Forall_app in Hp. destruct Hp as [_ Hp]. inversion Hp as [|? ? [X|X] _]; subst; [discriminate X|unfold CR in X; lia].
  - split; [|discriminate]. apply Forall_app in Hp. destruct Hp as [Hp1 Hp2]. constructor; [|apply IH, Hp2]. intros (a & b & ->).
    apply Forall_app in Hp1. destruct Hp1 as [_ Hp1]. inversion Hp1 as [|? ? [X|X] _]; subst; [discriminate X|unfold CR in X; lia].
Qed.

Definition out_of {U} (tr : list (obs U)) : bytes := concat (written_items tr).
Lemma out_app {U} (a b : list (obs U)) : out_of (a ++ b) = out_of a ++ out_of b.
Proof. unfold out_of. now rewrite items_app, concat_app. Qed.
Lemma out_writes {U} ws : out_of (map (@OWrite U) ws) = concat ws.
Proof. unfold out_of. f_equal. induction ws as [|x ws IH]; cbn; [reflexivity|now f_equal]. Qed.
Lemma a_reply_some code b : a_reply code b -> b <> [].
Proof.
  intros (ts & ws & Hn & _ & Hr & ->). destruct (reply_some _ _ _ Hr Hn) as (ws0 & w & -> & Hw).
  rewrite concat_app. cbn [concat]. destruct w; [contradiction|]. intros E. apply app_eq_nil in E. now destruct E.
Qed.
Lemma reads_nothing codes : reads [] codes -> codes = [].
Proof.
  intros (bs & r & E & F). destruct F as [|code b codes bs Hb _]; [reflexivity|].
  cbn [concat] in E. symmetry in E. apply app_eq_nil in E. destruct E as [E _]. apply app_eq_nil in E. destruct E as [E _].
  now apply a_reply_some in Hb.
Qed.
Lemma app_cases {A} (a b x y : list A) : a ++ b = x ++ y ->
  (exists d, a = x ++ d /\ d ++ b = y) \/ (exists d, x = a ++ d /\ d <> [] /\ b = d ++ y).
Proof.
  revert x. induction a as [|p a IH]; intros x E.
  - destruct x as [|q x]; [left; exists []; auto|]. right. exists (q :: x). split; [reflexivity|]. split; [discriminate|auto].
  - destruct x as [|q x]; [left; exists (p :: a); auto|]. injection E as -> E.
    destruct (IH _ E) as [(d & -> & H)|(d & -> & H)]; [left|right]; exists d; auto.
Qed.
(** Reading the first reply of what was done so far. *)
Lemma read_one {U} (calls w tr more tr' : list (obs U)) reply code codes :
  out_of calls = [] -> says reply w -> snd reply <> [] -> Forall SpecReply.printable (snd reply) ->
  tr ++ more = (calls ++ w) ++ tr' -> reads (out_of tr) (code :: codes) ->
  code = fst reply /\ exists tr1, tr = (calls ++ w) ++ tr1 /\ tr1 ++ more = tr' /\ reads (out_of tr1) codes.
Proof.
  intros Ec (ws & Hf & ->) Hn Hp E (bs & r & Eo & F). inversion F as [|? b ? bs' Hb F']; subst.
  destruct (full_reply_is _ _ _ Hf Hn Hp) as (ts & Ht & Hl & Hr). destruct Hb as (ts' & ws' & Ht' & Hl' & Hr' & ->).
  cbn [concat] in Eo. rewrite <- app_assoc in Eo.
  apply app_cases in E. destruct E as [(d & -> & E)|(d & E1 & Hd & _)].
  - rewrite !out_app, Ec, out_writes in Eo. cbn [app] in Eo.
    destruct (reply_first _ _ _ Hr Hl _ _ _ _ _ Hr' Hl' Ht Ht' Eo) as (Ecode & _ & Ex).
    split; [now symmetry|]. exists d. split; [reflexivity|]. split; [exact E|]. exists bs', r. auto.
  - exfalso. pose proof (f_equal out_of E1) as E2. rewrite !out_app, Ec, out_writes, Eo in E2. cbn [app] in E2.
    rewrite <- (app_nil_r (concat ws)), <- !app_assoc in E2.
    destruct (reply_first _ _ _ Hr Hl _ _ _ _ _ Hr' Hl' Ht Ht' E2) as (_ & _ & E3).
    symmetry in E3. apply app_eq_nil in E3. destruct E3 as [_ E3]. apply app_eq_nil in E3. destruct E3 as [_ E3].
    destruct (reply_some _ _ _ Hr Ht) as (ws0 & w & -> & Hw). rewrite map_app in E1. cbn [map] in E1. rewrite app_assoc in E1.
    destruct d as [|o d] using rev_ind; [contradiction|]. rewrite app_assoc in E1. apply app_inj_tail in E1. destruct E1 as [_ <-].
    rewrite out_app in E3. apply app_eq_nil in E3. destruct E3 as [_ E3]. unfold out_of in E3. cbn in E3. rewrite app_nil_r in E3. contradiction.
Qed.

Lemma accepted_cut {U} (tr more : list (obs U)) : accepted_mails (tr ++ more) = [] -> accepted_mails tr = [].
Proof. rewrite accepted_app. intros E. apply app_eq_nil in E. apply E. Qed.

Section Agree.
Context {C U : Type}.
Variable cfg : config C U.
Let sess := @sess C U.
Hypothesis RN : rewrites_nothing cfg.
Hypothesis HN : honest cfg.
Hypothesis AP : all_replies (fun r => sendable_reply r /\ printable_reply r) cfg.

Definition good_text (r : N * bytes) : Prop := snd r <> [] /\ Forall SpecReply.printable (snd r).
Lemma refusal_and (P Q : N * bytes -> Prop) d : on_refusal P d -> on_refusal Q d -> on_refusal (fun r => P r /\ Q r) d.
Proof. destruct d; cbn; auto. Qed.
Lemma handler_and (P Q : N * bytes -> Prop) (h : handler C U) : handler_replies P h -> handler_replies Q h ->
  handler_replies (fun r => P r /\ Q r) h.
Proof. induction h as [stop f IH|g IH|q IH|d c u]; cbn; auto using refusal_and. Qed.
Lemma replies_and (P Q : N * bytes -> Prop) : all_replies P cfg -> all_replies Q cfg -> all_replies (fun r => P r /\ Q r) cfg.
Proof.
  intros [] []. constructor; intros; first [now split|apply refusal_and; auto|apply handler_and; auto].
Qed.
Lemma all_good : all_replies good_text cfg.
Proof. exact (replies_and _ _ (hn_texts _ HN) (all_replies_impl cfg _ _ (fun r H => proj2 H) AP)). Qed.
Definition refusing (r : N * bytes) : Prop := negative (fst r) /\ good_text r.

Lemma step_sender c u f ps rest evs s2 : wf_command (Mail f ps) ->
  dialogue cfg (Sess c u None) (command_send (Mail f ps) ++ rest) evs s2 ->
  exists calls w tr c' u', evs = (calls ++ w) ++ tr /\ out_of calls = [] /\ accepted_mails (calls ++ w) = []
  /\ ((says (cf_mail_okay cfg c') w /\ dialogue cfg (Sess c' u' (Some (Meta f []))) rest tr s2)
      \/ exists reply, refusing reply /\ says reply w /\ dialogue cfg (Sess c' u' None) rest tr s2).
Proof.
  intros W D. destruct (dialogue_send _ _ _ _ _ _ W D) as (line & cmd' & Hl & P & Q & H).
  assert (exists ps', cmd' = Mail f ps') as (ps' & ->) by (inversion Q; subst; eauto).
  destruct H as [(e & s1 & tr & R & D' & ->)|[(e & c1 & u1 & m & t & r & e2 & s1 & tr & O & _)|(e & c1 & u1 & m & t & e2 & O & _)]];
    try (apply opens_data in O; congruence).
  pose proof (proj2 (reacts_good _ RN _ _ _ _ R Logic.I)) as Ac.
  inversion R; subst; match goal with Y : (forall _, command_parse _ <> _) |- _ => idtac | X : command_parse _ = POk _ |- _ => rewrite P in X; first [discriminate X|injection X as <- <-|injection X as <-|clear X] | _ => idtac end.
  - pose proof (rn_from _ RN (cf_new_mail cfg c) u f) as E. match goal with X : cf_filter_from _ _ _ _ = _ |- _ => rewrite X in E end.
    cbn [snd] in E. subst. do 5 eexists. split; [reflexivity|]. split; [reflexivity|]. split; [exact Ac|]. left. eauto.
  - do 5 eexists. split; [reflexivity|]. split; [reflexivity|]. split; [exact Ac|]. right. exists (code, msg). split; [|eauto].
    pose proof (hn_from _ HN (cf_new_mail cfg c) u f) as Hneg. pose proof (ar_from _ _ all_good (cf_new_mail cfg c) u f) as Hgood.
    match goal with X : cf_filter_from _ _ _ _ = _ |- _ => rewrite X in Hneg, Hgood end. split; [exact Hneg|exact Hgood].
  - match goal with X : other_command _ |- _ => destruct X end.
  - exfalso. match goal with X : forall _, _ <> _ |- _ => now apply (X _ P) end.
Qed.
Lemma step_recipient c u m t ps rest evs s2 : wf_command (Rcpt t ps) -> tx_good (Sess (C := C) (U := U) c u (Some m)) ->
  dialogue cfg (Sess c u (Some m)) (command_send (Rcpt t ps) ++ rest) evs s2 ->
  exists calls w tr c' u', evs = (calls ++ w) ++ tr /\ out_of calls = [] /\ accepted_mails (calls ++ w) = []
  /\ ((says (cf_rcpt_okay cfg c') w /\ dialogue cfg (Sess c' u' (Some (Meta (mm_from m) (mm_to m ++ [t])))) rest tr s2)
      \/ exists reply, refusing reply /\ says reply w /\ dialogue cfg (Sess c' u' (Some m)) rest tr s2).
Proof.
  intros W G D. destruct (dialogue_send _ _ _ _ _ _ W D) as (line & cmd' & Hl & P & Q & H).
  assert (exists ps', cmd' = Rcpt t ps') as (ps' & ->) by (inversion Q; subst; eauto).
  destruct H as [(e & s1 & tr & R & D' & ->)|[(e & c1 & u1 & m1 & t1 & r & e2 & s1 & tr & O & _)|(e & c1 & u1 & m1 & t1 & e2 & O & _)]];
    try (apply opens_data in O; congruence).
  pose proof (proj2 (reacts_good _ RN _ _ _ _ R G)) as Ac.
  inversion R; subst; match goal with Y : (forall _, command_parse _ <> _) |- _ => idtac | X : command_parse _ = POk _ |- _ => rewrite P in X; first [discriminate X|injection X as <- <-|injection X as <-|clear X] | _ => idtac end.
  - pose proof (rn_to _ RN c u m t) as [E1 E2]. match goal with X : cf_filter_to _ _ _ _ _ = _ |- _ => rewrite X in E1, E2 end.
    cbn [fst snd] in E1, E2. subst. do 5 eexists. split; [reflexivity|]. split; [reflexivity|]. split; [exact Ac|]. left. eauto.
  - pose proof (rn_to _ RN c u m t) as [E1 E2]. match goal with X : cf_filter_to _ _ _ _ _ = _ |- _ => rewrite X in E1, E2 end.
    cbn [fst snd] in E1, E2. subst. do 5 eexists. split; [reflexivity|]. split; [reflexivity|]. split; [exact Ac|]. right. exists (code, msg). split; [|eauto].
    pose proof (hn_to _ HN c u m t) as Hneg. pose proof (ar_to _ _ all_good c u m t) as Hgood.
    match goal with X : cf_filter_to _ _ _ _ _ = _ |- _ => rewrite X in Hneg, Hgood end. split; [exact Hneg|exact Hgood].
  - match goal with X : other_command _ |- _ => destruct X end.
  - exfalso. match goal with X : forall _, _ <> _ |- _ => now apply (X _ P) end.
Qed.
Lemma step_text c u m wire evs s2 : mm_to m <> [] -> tx_good (Sess (C := C) (U := U) c u (Some m)) ->
  dialogue cfg (Sess c u (Some m)) (command_send Data ++ wire) evs s2 ->
  exists calls w tr c' u', evs = (calls ++ w) ++ tr /\ out_of calls = [] /\ accepted_mails (calls ++ w) = []
  /\ ((exists reply, refusing reply /\ says reply w /\ dialogue cfg (Sess c' u' (Some m)) wire tr s2)
      \/ says (cf_data_okay cfg c') w
         /\ ((exists text rest evs' s1 tr', transfer wire text rest /\ delivers cfg c' u' m text true evs' s1
               /\ dialogue cfg s1 rest tr' s2 /\ tr = evs' ++ tr')
             \/ (exists text, interrupted wire text /\ delivers cfg c' u' m text false tr s2))).
Proof.
  intros Hm G D. destruct (dialogue_send _ (Sess c u (Some m)) Data _ _ _ Logic.I D) as (line & cmd' & Hl & P & Q & H).
  assert (cmd' = Data) as -> by (inversion Q; auto).
  destruct H as [(e & s1 & tr & R & D' & ->)|[(e & c1 & u1 & m1 & t1 & r & e2 & s1 & tr & O & T & Dl & D' & ->)|(e & c1 & u1 & m1 & t1 & e2 & O & T & Dl & ->)]].
  - pose proof (proj2 (reacts_good _ RN _ _ _ _ R G)) as Ac.
    inversion R; subst; match goal with Y : (forall _, command_parse _ <> _) |- _ => idtac | X : command_parse _ = POk _ |- _ => rewrite P in X; first [discriminate X|injection X as <- <-|injection X as <-|clear X] | _ => idtac end.
    + contradiction.
    + pose proof (rn_data _ RN c u m) as E1. match goal with X : cf_filter_data _ _ _ _ = _ |- _ => rewrite X in E1 end.
      cbn [snd] in E1. subst. do 5 eexists. split; [reflexivity|]. split; [reflexivity|]. split; [exact Ac|]. left. exists (code, msg). split; [|eauto].
      pose proof (hn_data _ HN c u m) as Hneg. pose proof (ar_filter_data _ _ all_good c u m) as Hgood.
      match goal with X : cf_filter_data _ _ _ _ = _ |- _ => rewrite X in Hneg, Hgood end. split; [exact Hneg|exact Hgood].
    + match goal with X : other_command _ |- _ => destruct X end.
    + exfalso. match goal with X : forall _, _ <> _ |- _ => now apply (X _ P) end.
  - destruct (opens_good _ RN _ _ _ _ _ _ O G) as (_ & _ & _ & Ac). inversion O; subst.
    pose proof (rn_data _ RN c u m) as E1. match goal with X : cf_filter_data _ _ _ _ = _ |- _ => rewrite X in E1 end. cbn [snd] in E1. subst.
    do 5 eexists. split; [reflexivity|]. split; [reflexivity|]. split; [exact Ac|]. right. split; [eassumption|]. left. eauto 10.
  - destruct (opens_good _ RN _ _ _ _ _ _ O G) as (_ & _ & _ & Ac). inversion O; subst.
    pose proof (rn_data _ RN c u m) as E1. match goal with X : cf_filter_data _ _ _ _ = _ |- _ => rewrite X in E1 end. cbn [snd] in E1. subst.
    do 5 eexists. split; [reflexivity|]. split; [reflexivity|]. split; [exact Ac|]. right. split; [eassumption|]. right. eauto 10.
Qed.

Definition agree (del dbt acc : list a_mail) : Prop :=
  exists acc1 acc2, acc = acc1 ++ acc2 /\ Forall2 received_as del acc1
  /\ (acc2 = [] \/ exists m m', dbt = [m] /\ acc2 = [m'] /\ received_as m m').
Lemma agree_nil dbt : agree [] dbt [].
Proof. exists [], []. repeat split; auto. Qed.
Definition tx_of (st : client_state) : option mail_meta :=
  match st with Some (f, taken, _, _) => Some (Meta f taken) | None => None end.

Lemma sent_transfer text enc rest : sent_as text enc -> exists out, normalised text out /\ transfer (enc ++ rest) out rest.
Proof.
  intros (ok & ch & s & sent & <- & E1 & E2 & ->). apply encoding_transfer. eapply C06_sink_output_exact; eauto.
Qed.
Lemma transfer_more wire text rest x : transfer wire text rest -> transfer (wire ++ x) text (rest ++ x).
Proof. intros (ls & H1 & H2 & -> & ->). exists ls. repeat split; auto. now rewrite <- !app_assoc. Qed.
Lemma no_transfer_nil text rest : ~ transfer [] text rest.
Proof. intros (ls & _ & _ & E & _). symmetry in E. apply app_eq_nil in E. destruct E as [_ E]. discriminate E. Qed.

(** The verdict has been read: so the text had been received, and decided on. *)
Lemma verdict_read text enc sent r lost c' u' m tr1 more tr' v codes s2 :
  sent_as text enc -> r ++ lost = enc ++ sent -> tr1 ++ more = tr' -> reads (out_of tr1) (v :: codes) ->
  ((exists text' rest evs' s1 tr2, transfer r text' rest /\ delivers cfg c' u' m text' true evs' s1
               /\ dialogue cfg s1 rest tr2 s2 /\ tr' = evs' ++ tr2)
             \/ (exists text', interrupted r text' /\ delivers cfg c' u' m text' false tr' s2)) ->
  (exists out rest d c2 u2 w2 tr2 tr3, normalised text out /\ rest ++ lost = sent
  /\ dialogue cfg (Sess c2 u2 None) rest tr2 s2
  /\ match d with Accept => positive v | Reject _ _ => negative v end
  /\ tr1 = w2 ++ tr3 /\ tr3 ++ more = tr2 /\ reads (out_of tr3) codes
  /\ accepted_mails w2 = match d with Accept => [(mm_from m, mm_to m, out)] | Reject _ _ => [] end)
  \/ (negative v /\ codes = [] /\ accepted_mails tr1 = []).
Proof.
  assert (Gd : forall c0 u0 m0 t0 k d c2 u2, yields (cf_handle_mail cfg c0 u0 m0) t0 k (d, c2, u2) ->
     let reply := match d with Accept => cf_mail_accepted cfg c2 | Reject code msg => (code, msg) end in
     good_text reply /\ match d with Accept => positive (fst reply) | Reject _ _ => negative (fst reply) end).
  { intros c0 u0 m0 t0 k d c2 u2 Y. destruct d as [|dc dm]; [split; [exact (ar_mail_accepted _ _ all_good c2)|apply HN]|].
    split; [exact (yields_replies _ _ _ _ _ _ _ (ar_handle _ _ all_good c0 u0 m0) Y)|exact (yields_replies _ _ _ _ _ _ _ (hn_handle _ HN c0 u0 m0) Y)]. }
  intros Hs El Et R [(text' & rest & evs' & s1 & tr2 & T & Dl & D & ->)|(text' & T & Dl)].
  - left. destruct (sent_transfer _ _ sent Hs) as (out & Nm & T2). rewrite <- El in T2.
    destruct (C01_transfer_unique _ _ _ _ _ T2 (transfer_more _ _ _ lost T)) as [E0 El2]. subst text'.
    inversion Dl as [c0 u0 m0 t0 k d c2 u2 w Y Sy]; subst c0 u0 m0 t0 k evs' s1.
    destruct (Gd _ _ _ _ _ _ _ _ Y) as [Gr Gc].
    destruct (read_one [OHandle u' m out [true] (Some (d, u2))] w tr1 more tr2 _ v codes eq_refl Sy (proj1 Gr) (proj2 Gr) Et R) as (-> & tr3 & -> & E3 & R3).
    exists out, rest, d, c2, u2. do 3 eexists. split; [exact Nm|]. split; [now symmetry|]. split; [exact D|]. split; [destruct d; exact Gc|].
    split; [reflexivity|]. split; [exact E3|]. split; [exact R3|].
    rewrite accepted_app, (accepted_says _ _ Sy), app_nil_r. destruct d; reflexivity.
  - right. inversion Dl as [c0 u0 m0 t0 k d c2 u2 w Y Sy]; subst c0 u0 m0 t0 k s2.
    destruct (Gd _ _ _ _ _ _ _ _ Y) as [Gr Gc]. rewrite <- (app_nil_r tr') in Et. subst tr'.
    destruct (read_one [OHandle u' m text' [false] (Some (d, u2))] w tr1 more [] _ v codes eq_refl Sy (proj1 Gr) (proj2 Gr) Et R) as (-> & tr3 & -> & E3 & R3).
    apply app_eq_nil in E3. destruct E3 as [-> ->]. rewrite app_nil_r, accepted_app, (accepted_says _ _ Sy).
    apply hn_whole in Y; [|exact HN]. destruct d; [contradiction|]. split; [exact Gc|]. split; [now apply reads_nothing|reflexivity].
Qed.
Lemma talks_unanswered st mails codes sent del dbt : talks st mails codes sent del dbt -> codes = [] -> del = [] /\ dbt = [].
Proof. intros T. destruct T; intros E; auto; discriminate E. Qed.

Lemma talk_agrees st mails codes sent del dbt : talks st mails codes sent del dbt ->
  forall c u received lost evs s2 tr more,
  sent = received ++ lost -> tx_good (Sess (C := C) (U := U) c u (tx_of st)) ->
  dialogue cfg (Sess c u (tx_of st)) received evs s2 -> tr ++ more = evs -> reads (out_of tr) codes ->
  agree del dbt (accepted_mails tr).
Proof.
  induction 1 as [st mails|st mails cmd W|st mails cmd code codes sent del dbt Ho W T IH
    |f ps tos text mails code codes sent del dbt W Hc T IH|f ps tos text mails code codes sent del dbt W Hc T IH
    |f taken t ps todo text mails code codes sent del dbt W Hc T IH|f taken t ps todo text mails code codes sent del dbt W Hc T IH
    |f taken text mails code codes sent del dbt Hn Hc T IH|f taken text mails code part missing Hn Hc Hs Hm
    |f taken text mails code enc Hn Hc Hs
    |f taken text mails code enc v codes sent del dbt Hn Hc Hs Hv T IH|f taken text mails code enc v codes sent del dbt Hn Hc Hs Hv T IH];
    intros c u received lost evs s2 tr more E G D Et R.
  - symmetry in E. apply app_eq_nil in E. destruct E as [-> ->]. apply dialogue_nil in D. destruct D as [-> _].
    apply app_eq_nil in Et. destruct Et as [-> ->]. apply agree_nil.
  - enough (A0 : accepted_mails evs = []) by (subst evs; rewrite (accepted_cut _ _ A0); apply agree_nil).
    rewrite <- (app_nil_r (command_send cmd)) in E. symmetry in E.
    destruct (cut_command _ _ _ _ W E) as [Hl|(r & -> & E')]; [now destruct (dialogue_is_line _ _ _ _ _ Hl D) as [-> _]|].
    apply app_eq_nil in E'. destruct E' as [-> ->].
    destruct (dialogue_send _ _ _ _ _ _ W D) as (line & cmd' & _ & _ & _ & [(e & s1 & tr' & Re & D' & ->)|[(e & c1 & u1 & m1 & t1 & r & e2 & s1 & tr' & O & T & _)|(e & c1 & u1 & m1 & t1 & e2 & O & T & Dl & ->)]]).
    + apply dialogue_nil in D'. destruct D' as [-> _]. rewrite app_nil_r. now apply (reacts_good _ RN) in Re.
    + now apply no_transfer_nil in T.
    + destruct (opens_good _ RN _ _ _ _ _ _ O G) as (_ & _ & _ & Ac). destruct (delivers_good _ _ _ _ _ _ _ _ Dl) as [_ [Ad|[Ad _]]]; [|discriminate].
      now rewrite accepted_app, Ac, Ad.
  - symmetry in E. destruct (cut_command _ _ _ _ W E) as [Hl|(r & -> & E')].
    { destruct (dialogue_is_line _ _ _ _ _ Hl D) as [-> _]. apply app_eq_nil in Et. destruct Et as [-> _]. now apply reads_nothing in R. }
    apply step_other in D; auto. destruct D as (w & tr' & Sy & -> & D).
    destruct (read_one [] w tr more tr' _ code codes eq_refl Sy (proj1 (ar_unimplemented _ _ all_good c)) (proj2 (ar_unimplemented _ _ all_good c)) Et R)
      as (_ & tr1 & -> & E1 & R1).
    cbn [app]. rewrite accepted_app, (accepted_says _ _ Sy). exact (IH c u _ _ _ _ _ _ (eq_sym E') G D E1 R1).
  - symmetry in E. destruct (cut_command _ _ _ _ W E) as [Hl|(r & -> & E')].
    { destruct (dialogue_is_line _ _ _ _ _ Hl D) as [-> _]. apply app_eq_nil in Et. destruct Et as [-> _]. now apply reads_nothing in R. }
    apply step_sender in D; auto. destruct D as (calls & w & tr' & c' & u' & -> & Oc & Ac & [[Sy D]|(reply & [Hr1 Hr2] & Sy & D)]).
    + destruct (read_one calls w tr more tr' _ code codes Oc Sy (proj1 (ar_mail_okay _ _ all_good c')) (proj2 (ar_mail_okay _ _ all_good c')) Et R)
        as (_ & tr1 & -> & E1 & R1).
      rewrite accepted_app, Ac. refine (IH _ _ _ _ _ _ _ _ (eq_sym E') _ D E1 R1). split; [exact (proj1 W)|constructor].
    + exfalso. destruct (read_one calls w tr more tr' _ code codes Oc Sy (proj1 Hr2) (proj2 Hr2) Et R) as (-> & _).
      unfold positive, negative in *. lia.
  - symmetry in E. destruct (cut_command _ _ _ _ W E) as [Hl|(r & -> & E')].
    { destruct (dialogue_is_line _ _ _ _ _ Hl D) as [-> _]. apply app_eq_nil in Et. destruct Et as [-> _]. now apply reads_nothing in R. }
    apply step_sender in D; auto. destruct D as (calls & w & tr' & c' & u' & -> & Oc & Ac & [[Sy D]|(reply & [Hr1 Hr2] & Sy & D)]).
    + exfalso. destruct (read_one calls w tr more tr' _ code codes Oc Sy (proj1 (ar_mail_okay _ _ all_good c')) (proj2 (ar_mail_okay _ _ all_good c')) Et R)
        as (-> & _). apply Hc, HN.
    + destruct (read_one calls w tr more tr' _ code codes Oc Sy (proj1 Hr2) (proj2 Hr2) Et R) as (_ & tr1 & -> & E1 & R1).
      rewrite accepted_app, Ac. exact (IH _ _ _ _ _ _ _ _ (eq_sym E') Logic.I D E1 R1).
  - symmetry in E. destruct (cut_command _ _ _ _ W E) as [Hl|(r & -> & E')].
    { destruct (dialogue_is_line _ _ _ _ _ Hl D) as [-> _]. apply app_eq_nil in Et. destruct Et as [-> _]. now apply reads_nothing in R. }
    cbn [tx_of] in *. apply step_recipient in D; auto. destruct D as (calls & w & tr' & c' & u' & -> & Oc & Ac & [[Sy D]|(reply & [Hr1 Hr2] & Sy & D)]).
    + destruct (read_one calls w tr more tr' _ code codes Oc Sy (proj1 (ar_rcpt_okay _ _ all_good c')) (proj2 (ar_rcpt_okay _ _ all_good c')) Et R)
        as (_ & tr1 & -> & E1 & R1).
      rewrite accepted_app, Ac. refine (IH _ _ _ _ _ _ _ _ (eq_sym E') _ D E1 R1). destruct G as [G1 G2]. split; [exact G1|].
      cbn [mm_to]. apply Forall_app. split; [exact G2|]. constructor; [exact (proj1 W)|constructor].
    + exfalso. destruct (read_one calls w tr more tr' _ code codes Oc Sy (proj1 Hr2) (proj2 Hr2) Et R) as (-> & _).
      unfold positive, negative in *. lia.
  - symmetry in E. destruct (cut_command _ _ _ _ W E) as [Hl|(r & -> & E')].
    { destruct (dialogue_is_line _ _ _ _ _ Hl D) as [-> _]. apply app_eq_nil in Et. destruct Et as [-> _]. now apply reads_nothing in R. }
    cbn [tx_of] in *. apply step_recipient in D; auto. destruct D as (calls & w & tr' & c' & u' & -> & Oc & Ac & [[Sy D]|(reply & [Hr1 Hr2] & Sy & D)]).
    + exfalso. destruct (read_one calls w tr more tr' _ code codes Oc Sy (proj1 (ar_rcpt_okay _ _ all_good c')) (proj2 (ar_rcpt_okay _ _ all_good c')) Et R)
        as (-> & _). apply Hc, HN.
    + destruct (read_one calls w tr more tr' _ code codes Oc Sy (proj1 Hr2) (proj2 Hr2) Et R) as (_ & tr1 & -> & E1 & R1).
      rewrite accepted_app, Ac. exact (IH c' u' _ _ _ _ _ _ (eq_sym E') G D E1 R1).
  - symmetry in E. destruct (cut_command _ _ _ _ (Logic.I : wf_command Data) E) as [Hl|(r & -> & E')].
    { destruct (dialogue_is_line _ _ _ _ _ Hl D) as [-> _]. apply app_eq_nil in Et. destruct Et as [-> _]. now apply reads_nothing in R. }
    cbn [tx_of] in *. apply step_text in D; auto. destruct D as (calls & w & tr' & c' & u' & -> & Oc & Ac & [(reply & [Hr1 Hr2] & Sy & D)|[Sy _]]).
    + destruct (read_one calls w tr more tr' _ code codes Oc Sy (proj1 Hr2) (proj2 Hr2) Et R) as (_ & tr1 & -> & E1 & R1).
      rewrite accepted_app, Ac. exact (IH c' u' _ _ _ _ _ _ (eq_sym E') G D E1 R1).
    + exfalso. destruct (read_one calls w tr more tr' _ code codes Oc Sy (proj1 (ar_data_okay _ _ all_good c')) (proj2 (ar_data_okay _ _ all_good c')) Et R)
        as (-> & _). apply Hc, HN.
  - symmetry in E. destruct (cut_command _ _ _ _ (Logic.I : wf_command Data) E) as [Hl|(r & -> & E')].
    { destruct (dialogue_is_line _ _ _ _ _ Hl D) as [-> _]. apply app_eq_nil in Et. destruct Et as [-> _]. now apply reads_nothing in R. }
    cbn [tx_of] in *. apply step_text in D; auto. destruct D as (calls & w & tr' & c' & u' & -> & Oc & Ac & [(reply & [Hr1 Hr2] & Sy & D)|[Sy Dd]]).
    + exfalso. destruct (read_one calls w tr more tr' _ code _ Oc Sy (proj1 Hr2) (proj2 Hr2) Et R) as (-> & _). unfold go_on, negative in *. lia.
    + destruct (read_one calls w tr more tr' _ code _ Oc Sy (proj1 (ar_data_okay _ _ all_good c')) (proj2 (ar_data_okay _ _ all_good c')) Et R)
        as (_ & tr1 & -> & E1 & R1).
      rewrite accepted_app, Ac. cbn [app].
      enough (A0 : accepted_mails tr' = []) by (subst tr'; rewrite (accepted_cut _ _ A0); apply agree_nil).
      destruct Dd as [(text' & rest & evs' & s1 & tr2 & T & _)|(text' & T & Dl)].
      * exfalso. destruct (sent_transfer _ _ [] Hs) as (out & _ & T2). rewrite app_nil_r in T2. subst part.
        pose proof (transfer_more _ _ _ (lost ++ missing) T) as T3. rewrite app_assoc in T3.
        destruct (C01_transfer_unique _ _ _ _ _ T2 T3) as [_ E3]. symmetry in E3. apply app_eq_nil in E3. destruct E3 as [_ E3].
        apply app_eq_nil in E3. now destruct E3.
      * destruct (delivers_good _ _ _ _ _ _ _ _ Dl) as [_ [Ad|[Ad _]]]; [exact Ad|discriminate].
  - symmetry in E. destruct (cut_command _ _ _ _ (Logic.I : wf_command Data) E) as [Hl|(r & -> & E')].
    { destruct (dialogue_is_line _ _ _ _ _ Hl D) as [-> _]. apply app_eq_nil in Et. destruct Et as [-> _]. now apply reads_nothing in R. }
    cbn [tx_of] in *. apply step_text in D; auto. destruct D as (calls & w & tr' & c' & u' & -> & Oc & Ac & [(reply & [Hr1 Hr2] & Sy & D)|[Sy Dd]]).
    + exfalso. destruct (read_one calls w tr more tr' _ code _ Oc Sy (proj1 Hr2) (proj2 Hr2) Et R) as (-> & _). unfold go_on, negative in *. lia.
    + destruct (read_one calls w tr more tr' _ code _ Oc Sy (proj1 (ar_data_okay _ _ all_good c')) (proj2 (ar_data_okay _ _ all_good c')) Et R)
        as (_ & tr1 & -> & E1 & R1).
      rewrite accepted_app, Ac. cbn [app].
      assert (K : accepted_mails tr' = [] \/ exists out, normalised text out /\ accepted_mails tr' = [(f, taken, out)]).
      { destruct Dd as [(text' & rest & evs' & s1 & tr2 & T & Dl & D2 & ->)|(text' & T & Dl)].
        - destruct (sent_transfer _ _ [] Hs) as (out & Nm & T2). rewrite app_nil_r in T2. subst enc.
          pose proof (transfer_more _ _ _ lost T) as T3. destruct (C01_transfer_unique _ _ _ _ _ T2 T3) as [<- E3].
          symmetry in E3. apply app_eq_nil in E3. destruct E3 as [-> ->]. apply dialogue_nil in D2. destruct D2 as [-> _]. rewrite app_nil_r.
          destruct (delivers_good _ _ _ _ _ _ _ _ Dl) as [_ [Ad|[_ Ad]]]; [now left|]. right. exists out. auto.
        - destruct (delivers_good _ _ _ _ _ _ _ _ Dl) as [_ [Ad|[Ad _]]]; [now left|discriminate]. }
      subst tr'. rewrite accepted_app in K. destruct K as [K|(out & Nm & K)].
      * apply app_eq_nil in K. destruct K as [-> _]. apply agree_nil.
      * destruct (accepted_mails tr1) as [|m' l]; [apply agree_nil|]. injection K as -> K. apply app_eq_nil in K. destruct K as [-> _].
        exists [], [(f, taken, out)]. split; [reflexivity|]. split; [constructor|]. right. do 2 eexists. split; [reflexivity|]. split; [reflexivity|]. split; [reflexivity|exact Nm].
  - symmetry in E. destruct (cut_command _ _ _ _ (Logic.I : wf_command Data) E) as [Hl|(r & -> & E')].
    { destruct (dialogue_is_line _ _ _ _ _ Hl D) as [-> _]. apply app_eq_nil in Et. destruct Et as [-> _]. now apply reads_nothing in R. }
    cbn [tx_of] in *. apply step_text in D; auto. destruct D as (calls & w & tr' & c' & u' & -> & Oc & Ac & [(reply & [Hr1 Hr2] & Sy & D)|[Sy Dd]]).
    + exfalso. destruct (read_one calls w tr more tr' _ code _ Oc Sy (proj1 Hr2) (proj2 Hr2) Et R) as (-> & _). unfold go_on, negative in *. lia.
    + destruct (read_one calls w tr more tr' _ code _ Oc Sy (proj1 (ar_data_okay _ _ all_good c')) (proj2 (ar_data_okay _ _ all_good c')) Et R)
        as (_ & tr1 & -> & E1 & R1).
      rewrite accepted_app, Ac. cbn [app].
      destruct (verdict_read _ _ _ _ _ _ _ _ _ _ _ _ _ _ Hs E' E1 R1 Dd) as [(out & rest & d & c2 & u2 & w2 & tr2 & tr3 & Nm & El & D2 & Ev & -> & E3 & R3 & Acw)|(Nv & Ec & An)].
      2:{ exfalso. unfold positive, negative in *. lia. }
      rewrite accepted_app, Acw. destruct d as [|dc dm]; [|exfalso; unfold positive, negative in *; lia].
      destruct (IH c2 u2 _ _ _ _ _ _ (eq_sym El) Logic.I D2 E3 R3) as (a1 & a2 & -> & F1 & F2).
      exists ((f, taken, out) :: a1), a2. split; [reflexivity|]. split; [|exact F2]. constructor; [|exact F1]. split; [reflexivity|exact Nm].
  - symmetry in E. destruct (cut_command _ _ _ _ (Logic.I : wf_command Data) E) as [Hl|(r & -> & E')].
    { destruct (dialogue_is_line _ _ _ _ _ Hl D) as [-> _]. apply app_eq_nil in Et. destruct Et as [-> _]. now apply reads_nothing in R. }
    cbn [tx_of] in *. apply step_text in D; auto. destruct D as (calls & w & tr' & c' & u' & -> & Oc & Ac & [(reply & [Hr1 Hr2] & Sy & D)|[Sy Dd]]).
    + exfalso. destruct (read_one calls w tr more tr' _ code _ Oc Sy (proj1 Hr2) (proj2 Hr2) Et R) as (-> & _). unfold go_on, negative in *. lia.
    + destruct (read_one calls w tr more tr' _ code _ Oc Sy (proj1 (ar_data_okay _ _ all_good c')) (proj2 (ar_data_okay _ _ all_good c')) Et R)
        as (_ & tr1 & -> & E1 & R1).
      rewrite accepted_app, Ac. cbn [app].
      destruct (verdict_read _ _ _ _ _ _ _ _ _ _ _ _ _ _ Hs E' E1 R1 Dd) as [(out & rest & d & c2 & u2 & w2 & tr2 & tr3 & Nm & El & D2 & Ev & -> & E3 & R3 & Acw)|(Nv & Ec & An)].
      2:{ rewrite An. destruct (talks_unanswered _ _ _ _ _ _ T Ec) as [-> ->]. apply agree_nil. }
      rewrite accepted_app, Acw. destruct d as [|dc dm]; [contradiction|].
      exact (IH c2 u2 _ _ _ _ _ _ (eq_sym El) Logic.I D2 E3 R3).
Qed.
End Agree.

(** ** C77 *)
(** Whatever happens (the client goes away, the connection loses the end of what
    was sent, the writer fails, the server is stopped after [tr]): what the client
    takes for delivered, the server has taken, in this order and with exactly the
    recipients it confirmed; it has taken nothing else, except possibly the one
    mail whose verdict the client has not read. *)
Theorem C77_agreement : forall C U W (cfg : config C U) (wr : writer W) evs w c u o s tr rest
    mails greeting codes sent received lost delivered doubt,
  honest cfg -> rewrites_nothing cfg -> lawful cfg ->
  interact cfg wr (src_of evs) w c u = (o, s) -> st_trace s = tr ++ rest ->
  talks None mails codes sent delivered doubt ->
  sent = received ++ lost -> carries evs received ->
  reads (concat (written_items tr)) (greeting :: codes) ->
  exists taken1 taken2, accepted_mails tr = taken1 ++ taken2
  /\ Forall2 received_as delivered taken1
  /\ (taken2 = [] \/ exists m m', doubt = [m] /\ taken2 = [m'] /\ received_as m m').
Proof.
  intros C U W cfg wr evs w c u o s tr rest mails g codes sent received lost del dbt HN RN [DM AP] In Etr T Es Ca R.
  destruct (interact cfg test_writer (src_of evs) tt c u) as [o' s'] eqn:In'.
  assert (RW : reliable test_writer) by (repeat split).
  pose proof (C35_success _ _ _ _ _ _ _ _ _ _ _ AP DM RW In') as ->.
  assert (exists more, tr ++ more = st_trace s') as (more & Em).
  { assert (exists more, st_trace s' = st_trace s ++ more) as (more & Em).
    { destruct o; first [exact (C37_writer_failure _ _ _ _ _ _ _ _ _ _ _ _ _ _ _ RW In In')
        |exists []; rewrite app_nil_r; apply (C37_otherwise_same _ _ _ _ _ _ _ _ _ _ _ _ _ _ _ _ RW In) in In'; [apply In'|discriminate]]. }
    exists (rest ++ more). now rewrite Em, Etr, <- app_assoc. }
  destruct (C33_session_is_the_dialogue _ _ _ _ _ _ _ _ _ _ (all_replies_impl cfg _ _ (fun r H => proj1 H) AP) DM In')
    as (b & evs0 & E0 & B & D & _).
  change (src_bytes (src_of evs)) with (concat (map ev_bytes evs)) in D. unfold carries in Ca. rewrite Ca in D.
  rewrite E0 in Em. pose proof (ar_banner _ _ (all_good cfg HN AP) c) as [B1 B2].
  destruct (read_one [] b tr more evs0 _ g codes eq_refl B B1 B2 Em R) as (_ & tr1 & -> & E1 & R1).
  cbn [app]. rewrite accepted_app, (accepted_says _ _ B).
  exact (talk_agrees cfg RN HN AP _ _ _ _ _ _ T c u received lost evs0 _ tr1 more Es Logic.I D E1 R1).
Qed.

(** Servers that take the defaults are honest, if their own refusals are. *)
Theorem C77_default_is_honest : forall C U ff ft (hm : C -> U -> mail_meta -> handler C U) hostname,
  let fair := fun r : N * bytes => negative (fst r) /\ snd r <> [] in
  (forall c u f, on_refusal fair (fst (fst (fst (ff c u f))))) ->
  (forall c u m t, on_refusal fair (fst (fst (fst (fst (ft c u m t)))))) ->
  (forall c u m, handler_replies fair (hm c u m)) ->
  (forall c u m text d c' u', yields (hm c u m) text false (d, c', u') -> d <> Accept) ->
  honest (default_config ff ft hm hostname).
Proof.
  intros C U ff ft hm hostname fair H1 H2 H3 H4.
  assert (Wd : forall (P : N * bytes -> Prop) d, (forall r, fair r -> P r) -> on_refusal fair d -> on_refusal P d) by (intros P [|code msg] HP; cbn; auto).
  assert (Wh : forall (P : N * bytes -> Prop) (h : handler C U), (forall r, fair r -> P r) -> handler_replies fair h -> handler_replies P h).
  { intros P h HP. induction h as [stop f IH|g IH|q IH|d c u]; cbn; intros Hh; auto. }
  constructor; intros; cbn [cf_mail_okay cf_rcpt_okay cf_data_okay cf_mail_accepted cf_filter_from cf_filter_to cf_filter_data cf_handle_mail default_config].
  - split; vm_compute; [discriminate|reflexivity].
  - split; vm_compute; [discriminate|reflexivity].
  - split; vm_compute; [discriminate|reflexivity].
  - split; vm_compute; [discriminate|reflexivity].
  - apply Wd; [now intros ? []|apply H1].
  - apply Wd; [now intros ? []|apply H2].
  - exact Logic.I.
  - apply Wh; [now intros ? []|apply H3].
  - eapply H4. eassumption.
  - constructor; intros; cbn [cf_welcome_banner cf_mail_okay cf_rcpt_okay cf_data_okay cf_mail_accepted cf_already_in_mail cf_rcpt_before_mail
      cf_data_before_rcpt cf_data_before_mail cf_command_unimplemented cf_command_unrecognized cf_filter_from cf_filter_to cf_filter_data cf_handle_mail default_config snd];
      try discriminate.
    + unfold smtp_add. intros E. apply app_eq_nil in E. destruct E as [_ E]. discriminate E.
    + apply Wd; [now intros ? []|apply H1].
    + apply Wd; [now intros ? []|apply H2].
    + exact Logic.I.
    + apply Wh; [now intros ? []|apply H3].
Qed.

(** Why the client of [talks] never begins another mail after recipients or text
    were refused: the server does not implement RSET.  A client that relies on it
    sends the first mail's recipients the second mail, under the first sender. *)
Lemma step_mail_again {C U} (cfg : config C U) c u m f ps rest evs s2 : wf_command (Mail f ps) ->
  dialogue cfg (Sess c u (Some m)) (command_send (Mail f ps) ++ rest) evs s2 ->
  exists w tr, says (cf_already_in_mail cfg c) w /\ evs = w ++ tr /\ dialogue cfg (Sess c u (Some m)) rest tr s2.
Proof.
  intros W D. destruct (dialogue_send _ _ _ _ _ _ W D) as (line & cmd' & Hl & P & Q & H).
  assert (exists ps', cmd' = Mail f ps') as (ps' & ->) by (inversion Q; subst; eauto).
  destruct H as [(e & s1 & tr & R & D' & ->)|[(e & c1 & u1 & m1 & t & r & e2 & s1 & tr & O & _)|(e & c1 & u1 & m1 & t & e2 & O & _)]];
    try (apply opens_data in O; congruence).
  inversion R; subst; match goal with Y : (forall _, command_parse _ <> _) |- _ => idtac | X : command_parse _ = POk _ |- _ => rewrite P in X; first [discriminate X|injection X as <- <-|injection X as <-|clear X] | _ => idtac end.
  - eauto.
  - match goal with X : other_command _ |- _ => destruct X end.
  - exfalso. match goal with X : forall _, _ <> _ |- _ => now apply (X _ P) end.
Qed.
Theorem C77_rset_mixes_mails : forall C U W (cfg : config C U) (wr : writer W) evs w c u o s fA pA a qA fB pB b qB text enc,
  accepting cfg -> lawful cfg -> reliable wr ->
  wf_command (Mail fA pA) -> wf_command (Rcpt a qA) -> wf_command (Mail fB pB) -> wf_command (Rcpt b qB) -> sent_as text enc ->
  carries evs (command_send (Mail fA pA) ++ command_send (Rcpt a qA) ++ command_send Rset
               ++ command_send (Mail fB pB) ++ command_send (Rcpt b qB) ++ command_send Data ++ enc) ->
  interact cfg wr (src_of evs) w c u = (o, s) ->
  exists out, normalised text out /\ accepted_mails (st_trace s) = [(fA, [a; b], out)].
Proof.
  intros C U W cfg wr evs w c u o s fA pA a qA fB pB b qB text enc A [DM AP] RW W1 W2 W3 W4 Hs Ca In.
  pose proof (C35_success _ _ _ _ _ _ _ _ _ _ _ AP DM RW In) as ->.
  destruct (C33_session_is_the_dialogue _ _ _ _ _ _ _ _ _ _ (all_replies_impl cfg _ _ (fun r H => proj1 H) AP) DM In)
    as (bn & evs0 & E0 & B & D & _).
  change (src_bytes (src_of evs)) with (concat (map ev_bytes evs)) in D. unfold carries in Ca. rewrite Ca in D. rewrite E0. clear E0 In Ca.
  apply (step_mail cfg A) in D; [|exact W1]. destruct D as (c1 & u1 & w1 & t1 & S1 & -> & D).
  apply (step_rcpt cfg A) in D; [|exact W2]. destruct D as (c2 & u2 & w2 & t2 & S2 & -> & D).
  apply step_other in D; [|exact Logic.I|exact Logic.I]. destruct D as (w3 & t3 & S3 & -> & D).
  apply step_mail_again in D; [|exact W3]. destruct D as (w4 & t4 & S4 & -> & D).
  apply (step_rcpt cfg A) in D; [|exact W4]. destruct D as (c5 & u5 & w5 & t5 & S5 & -> & D).
  destruct (sent_transfer _ _ [] Hs) as (out & Nm & T). rewrite app_nil_r in T.
  eapply (step_data cfg A) in D; [|discriminate|exact T]. destruct D as (c6 & u6 & w6 & c7 & u7 & w7 & t7 & S6 & S7 & -> & D).
  apply dialogue_nil in D. destruct D as [-> _].
  exists out. split; [exact Nm|]. rewrite !accepted_app.
  rewrite (accepted_says _ _ B), (accepted_says _ _ S1), (accepted_says _ _ S2), (accepted_says _ _ S3), (accepted_says _ _ S4),
    (accepted_says _ _ S5), (accepted_says _ _ S6), (accepted_says _ _ S7). reflexivity.
Qed.

(** A server that refuses recipients "x" and texts that begin with "n", and a
    client: a recipient refused, a mail delivered, a mail refused, an
    unimplemented command, a mail whose verdict it does not wait for. *)
Definition fussy_handle (c : mails) (u : unit) (m : mail_meta) : handler mails unit :=
  HRead (fun _ => false) (fun items _ => HComplete (fun ok =>
    match ok, concat items with
    | true, 110%N :: _ => HDone (Reject 554 (s2b "No")) c u
    | true, _ => HDone Accept (c ++ [(mm_from m, mm_to m, concat items)]) u
    | false, _ => HDone (Reject BAD_SEQUENCE (s2b "Closed")) c u
    end)).
Definition fussy_to (c : mails) (u : unit) (m : mail_meta) (t : email) : decision * mails * unit * mail_meta * email :=
  (match em_localpart t with [120%N] => Reject 550 (s2b "No such user") | _ => Accept end, c, u, m, t).
Definition fussy : config mails unit :=
  default_config (fun c u a => (Accept, c, u, a)) fussy_to fussy_handle (fun _ => s2b "host").
Lemma fussy_honest : honest fussy.
Proof.
  apply C77_default_is_honest.
  - intros. exact Logic.I.
  - intros c u m [l h]. unfold fussy_to. cbn [fst em_localpart].
    destruct l as [|[|p] [|? ?]]; cbn; try exact Logic.I; repeat (destruct p as [p|p|]; cbn; try exact Logic.I); split; try discriminate; cbv; split; congruence.
  - intros c u m items over [|]; cbn.
    + destruct (concat items) as [|[|p] ?]; cbn; try exact Logic.I; repeat (destruct p as [p|p|]; cbn; try exact Logic.I); split; try discriminate; cbv; split; congruence.
    + split; [cbv; split; congruence|discriminate].
  - intros c u m text d c' u' Y. inversion Y; subst; [discriminate|].
    match goal with X : _ = HComplete _ |- _ => injection X as <- end.
    match goal with X : _ = HDone _ _ _ |- _ => injection X as <- _ _ end. discriminate.
Qed.
Lemma fussy_lawful : lawful fussy.
Proof.
  split.
  - intros c u m. cbn. constructor; [discriminate|]. intros items. eexists. split; [reflexivity|].
    intros [|]; [|do 3 eexists; reflexivity].
    destruct (concat items) as [|[|p] ?]; try (do 3 eexists; reflexivity);
      repeat (destruct p as [p|p|]; try (do 3 eexists; reflexivity)).
  - assert (Hg : forall r, (fst r <? 1000)%N && (N.of_nat (length (snd r)) + 506 <=? 18446744073709551616)%N
      && forallb (fun c => (c =? 9)%N || ((32 <=? c)%N && (c <=? 126)%N)) (snd r) = true -> good_reply r).
    { intros r H. rewrite !andb_true_iff, N.ltb_lt, N.leb_le in H. destruct H as [[H1 H2] H3].
      split; [split; assumption|]. rewrite forallb_forall in H3. apply Forall_forall. intros x Hx. apply H3 in Hx.
      unfold SpecReply.printable. rewrite orb_true_iff, andb_true_iff, N.eqb_eq, !N.leb_le in Hx. exact Hx. }
    constructor; intros; try exact Logic.I; try (apply Hg; vm_compute; reflexivity).
    + destruct t as [l h]. cbn -[good_reply].
      destruct l as [|[|p] [|? ?]]; try exact Logic.I; repeat (destruct p as [p|p|]; try exact Logic.I); apply Hg; vm_compute; reflexivity.
    + intros items over [|]; cbn -[good_reply].
      * destruct (concat items) as [|[|p] ?]; try exact Logic.I; repeat (destruct p as [p|p|]; try exact Logic.I); apply Hg; vm_compute; reflexivity.
      * apply Hg; vm_compute; reflexivity.
Qed.
Lemma fussy_keeps : rewrites_nothing fussy.
Proof. constructor; intros; cbn; auto. Qed.
Definition mail1 : a_mail := (Some (an_email "a@b.cd"), [an_email "x"; an_email "g"], s2b ".hi").
Definition mail2 : a_mail := (None, [an_email "g"], s2b "no").
Definition mail3 : a_mail := (None, [an_email "g"; an_email "h@i.jk"], []).
Definition careful_wire : bytes :=
  s2b "MAIL FROM:<a@b.cd>" ++ CRLF ++ s2b "RCPT TO:<x>" ++ CRLF ++ s2b "RCPT TO:<g>" ++ CRLF ++ s2b "DATA" ++ CRLF ++ s2b "..hi" ++ CRLF ++ s2b "." ++ CRLF
  ++ s2b "MAIL FROM:<>" ++ CRLF ++ s2b "RCPT TO:<g>" ++ CRLF ++ s2b "DATA" ++ CRLF ++ s2b "no" ++ CRLF ++ s2b "." ++ CRLF
  ++ s2b "RSET" ++ CRLF ++ s2b "MAIL FROM:<>" ++ CRLF ++ s2b "RCPT TO:<g>" ++ CRLF ++ s2b "RCPT TO:<h@i.jk>" ++ CRLF ++ s2b "DATA" ++ CRLF ++ s2b "." ++ CRLF.
Lemma careful_talk : talks None [mail1; mail2; mail3] [250; 550; 250; 354; 250; 250; 250; 354; 554; 502; 250; 250; 250; 354]%N careful_wire
  [(Some (an_email "a@b.cd"), [an_email "g"], s2b ".hi")] [mail3].
Proof.
  assert (Wf : forall cmd, command_parse (command_send cmd) = POk cmd -> wf_command cmd) by exact wf_by_parsing.
  assert (Sa : forall text, exists enc, sent_as text enc /\ enc = concat (fst (sink_end sink_accept (fst (sink_send_all sink_accept sink_new [text]))))).
  { intros text. destruct (sink_takes text) as (s & sent & E1 & E2). exists (concat sent). split; [|rewrite E1; cbn [fst]; now rewrite E2].
    exists sink_accept, [text], s, sent. split; [apply app_nil_r|auto]. }
  destruct (Sa (s2b ".hi")) as (e1 & S1 & E1). destruct (Sa (s2b "no")) as (e2 & S2 & E2). destruct (Sa []) as (e3 & S3 & E3).
  assert (Ew : careful_wire = command_send (Mail (Some (an_email "a@b.cd")) []) ++ command_send (Rcpt (an_email "x") []) ++ command_send (Rcpt (an_email "g") [])
    ++ command_send Data ++ e1 ++ command_send (Mail None []) ++ command_send (Rcpt (an_email "g") []) ++ command_send Data ++ e2
    ++ command_send Rset ++ command_send (Mail None []) ++ command_send (Rcpt (an_email "g") []) ++ command_send (Rcpt (an_email "h@i.jk") [])
    ++ command_send Data ++ e3) by (rewrite E1, E2, E3; vm_compute; reflexivity).
  rewrite Ew. clear Ew E1 E2 E3 Sa. unfold mail1, mail2, mail3.
  apply t_sender_taken; [apply Wf; vm_compute; reflexivity|cbv; split; congruence|].
  apply t_recipient_refused; [apply Wf; vm_compute; reflexivity|cbv; intros [_ X]; congruence|].
  apply t_recipient_taken; [apply Wf; vm_compute; reflexivity|cbv; split; congruence|].
  apply t_delivered; [discriminate|cbv; split; congruence|exact S1|cbv; split; congruence|].
  apply t_sender_taken; [exact (conj Logic.I wf_nil)|cbv; split; congruence|].
  apply t_recipient_taken; [apply Wf; vm_compute; reflexivity|cbv; split; congruence|].
  apply t_text_rejected; [discriminate|cbv; split; congruence|exact S2|cbv; intros [_ X]; congruence|].
  apply t_other; [exact Logic.I|exact Logic.I|].
  apply t_sender_taken; [exact (conj Logic.I wf_nil)|cbv; split; congruence|].
  apply t_recipient_taken; [apply Wf; vm_compute; reflexivity|cbv; split; congruence|].
  apply t_recipient_taken; [apply Wf; vm_compute; reflexivity|cbv; split; congruence|].
  exact (t_text_sent None [an_email "g"; an_email "h@i.jk"] [] [] 354%N e3 ltac:(discriminate) ltac:(cbv; split; congruence) S3).
Qed.
Lemma reply_by_line code text ds : three_digits code ds -> is_line text -> a_reply code (ds ++ s2b " " ++ text ++ CRLF).
Proof.
  intros D L. exists [text], [ds ++ s2b " " ++ text ++ CRLF]. split; [discriminate|]. split; [repeat constructor; exact L|].
  split; [|symmetry; apply app_nil_r]. constructor. exists ds. split; [exact D|reflexivity].
Qed.
Lemma digits a b c : (a < 10)%N -> (b < 10)%N -> (c < 10)%N -> three_digits (100 * a + 10 * b + c) [48 + a; 48 + b; 48 + c]%N.
Proof. intros. exists a, b, c. auto. Qed.
Lemma line_by_bytes l : forallb (fun x => negb (x =? CR)%N) l = true -> is_line l.
Proof.
  intros H (a & b & ->). rewrite forallb_app in H. apply andb_true_iff in H. destruct H as [_ H]. cbn in H. discriminate.
Qed.
Example C77_example : exists s,
  interact fussy test_writer (src_of [Chunk careful_wire]) tt [] tt = (Ret tt, s)
  /\ honest fussy /\ rewrites_nothing fussy /\ lawful fussy
  /\ reads (concat (written_items (st_trace s))) (220%N :: [250; 550; 250; 354; 250; 250; 250; 354; 554; 502; 250; 250; 250; 354]%N)
  /\ talks None [mail1; mail2; mail3] [250; 550; 250; 354; 250; 250; 250; 354; 554; 502; 250; 250; 250; 354]%N careful_wire
       [(Some (an_email "a@b.cd"), [an_email "g"], s2b ".hi")] [mail3]
  /\ accepted_mails (st_trace s) = [(Some (an_email "a@b.cd"), [an_email "g"], s2b ".hi" ++ CRLF); mail3].
Proof.
  eexists. split; [vm_compute; reflexivity|].
  split; [exact fussy_honest|]. split; [exact fussy_keeps|]. split; [exact fussy_lawful|].
  split; [|split; [exact careful_talk|vm_compute; reflexivity]].
  exists [s2b "220 host Service ready" ++ CRLF; s2b "250 Okay" ++ CRLF; s2b "550 No such user" ++ CRLF; s2b "250 Okay" ++ CRLF;
    s2b "354 Start mail input; end with <CRLF>.<CRLF>" ++ CRLF; s2b "250 Okay" ++ CRLF; s2b "250 Okay" ++ CRLF; s2b "250 Okay" ++ CRLF;
    s2b "354 Start mail input; end with <CRLF>.<CRLF>" ++ CRLF; s2b "554 No" ++ CRLF; s2b "502 Command not implemented" ++ CRLF;
    s2b "250 Okay" ++ CRLF; s2b "250 Okay" ++ CRLF; s2b "250 Okay" ++ CRLF;
    s2b "354 Start mail input; end with <CRLF>.<CRLF>" ++ CRLF], (s2b "250 Okay" ++ CRLF).
  split; [vm_compute; reflexivity|].
  assert (Q : forall a b c text, (a < 10)%N -> (b < 10)%N -> (c < 10)%N -> forallb (fun x => negb (x =? CR)%N) text = true ->
    a_reply (100 * a + 10 * b + c) ([48 + a; 48 + b; 48 + c]%N ++ s2b " " ++ text ++ CRLF)).
  { intros. apply reply_by_line; [now apply digits|now apply line_by_bytes]. }
  repeat apply Forall2_cons; try apply Forall2_nil.
  - exact (Q 2 2 0 (s2b "host Service ready") eq_refl eq_refl eq_refl eq_refl)%N.
  - exact (Q 2 5 0 (s2b "Okay") eq_refl eq_refl eq_refl eq_refl)%N.
  - exact (Q 5 5 0 (s2b "No such user") eq_refl eq_refl eq_refl eq_refl)%N.
  - exact (Q 2 5 0 (s2b "Okay") eq_refl eq_refl eq_refl eq_refl)%N.
  - exact (Q 3 5 4 (s2b "Start mail input; end with <CRLF>.<CRLF>") eq_refl eq_refl eq_refl eq_refl)%N.
  - exact (Q 2 5 0 (s2b "Okay") eq_refl eq_refl eq_refl eq_refl)%N.
  - exact (Q 2 5 0 (s2b "Okay") eq_refl eq_refl eq_refl eq_refl)%N.
  - exact (Q 2 5 0 (s2b "Okay") eq_refl eq_refl eq_refl eq_refl)%N.
  - exact (Q 3 5 4 (s2b "Start mail input; end with <CRLF>.<CRLF>") eq_refl eq_refl eq_refl eq_refl)%N.
  - exact (Q 5 5 4 (s2b "No") eq_refl eq_refl eq_refl eq_refl)%N.
  - exact (Q 5 0 2 (s2b "Command not implemented") eq_refl eq_refl eq_refl eq_refl)%N.
  - exact (Q 2 5 0 (s2b "Okay") eq_refl eq_refl eq_refl eq_refl)%N.
  - exact (Q 2 5 0 (s2b "Okay") eq_refl eq_refl eq_refl eq_refl)%N.
  - exact (Q 2 5 0 (s2b "Okay") eq_refl eq_refl eq_refl eq_refl)%N.
  - exact (Q 3 5 4 (s2b "Start mail input; end with <CRLF>.<CRLF>") eq_refl eq_refl eq_refl eq_refl)%N.
Qed.
(** A client that does not wait: its only recipient is refused, so the server
    takes the lines of the text for commands, and the text chooses a recipient. *)
Definition rude_text : bytes := s2b "RCPT TO:<g>" ++ CRLF ++ s2b "DATA" ++ CRLF ++ s2b "hi" ++ CRLF.
Example C77_without_waiting : exists enc, sent_as rude_text enc
  /\ accepted_mails (st_trace (snd (interact fussy test_writer (src_of [Chunk
       (command_send (Mail (Some (an_email "a@b.cd")) []) ++ command_send (Rcpt (an_email "x") []) ++ command_send Data ++ enc)]) tt [] tt)))
     = [(Some (an_email "a@b.cd"), [an_email "g"], s2b "hi" ++ CRLF)].
Proof.
  eexists. split; [exists sink_accept, [rude_text]; do 2 eexists; split; [reflexivity|split; [vm_compute; reflexivity|split; [vm_compute; reflexivity|reflexivity]]]|].
  vm_compute. reflexivity.
Qed.
