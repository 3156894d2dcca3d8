(** C81: between two mails a connection is as good as new. *)
From Coq Require Import List Arith NArith Bool Lia.
Import ListNotations.
From Verif Require Import Bytes Nom SmtpString Message Reply Stream SpecData DataProofs DataLines StreamProofs
  PropData SpecGrammar CommandProofs SpecReply PropReply Interact RepoSessions InteractProofs SpecSession
  SpecExchange HandlerProofs SessionProofs TraceProofs ExchangeProofs LawfulProofs SimProofs PropServer SpecE2E PropE2E PropSettle PropDefault SpecDefault SpecFresh.

Lemma whole_lines_rest p rest : whole_lines (p ++ CRLF ++ rest) -> whole_lines rest.
Proof.
  intros [E|(x & E)]; [destruct p; discriminate E|].
  destruct rest as [|r0 rest] using rev_ind; [now left|clear IHrest].
  destruct rest as [|r1 rest] using rev_ind; [|clear IHrest].
  - exfalso. cbn [app] in E. change (p ++ CRLF ++ [r0]) with (p ++ [CR] ++ [LF] ++ [r0]) in E. change CRLF with ([CR] ++ [LF]) in E.
    rewrite !app_assoc in E. apply app_inj_tail in E. destruct E as [E _]. apply app_inj_tail in E. destruct E as [_ E]. discriminate E.
  - right. change CRLF with ([CR] ++ [LF]) in *. rewrite !app_assoc in E. apply app_inj_tail in E. destruct E as [E ->].
    apply app_inj_tail in E. destruct E as [_ ->]. exists rest. now rewrite <- app_assoc.
Qed.

Section Fresh.
Context {C U : Type}.
Variable cfg : config C U.
Notation sess := (@sess C U).

(** ** Two pieces in one *)
Lemma dialogue_append (s s1 s2 : sess) b1 b2 tr1 tr2 : dialogue cfg s b1 tr1 s1 -> whole_lines b1 -> nothing_cut tr1 ->
  dialogue cfg s1 b2 tr2 s2 -> dialogue cfg s (b1 ++ b2) (tr1 ++ tr2) s2.
Proof.
  intros D. induction D as [s t Ht|s l r e s1 tr s3 Hl Hr Hd IH|s l w e c u m text r e' s1 tr s3 Hl Ho Ht Hd Hd' IH|s l w e c u m text e' s1 Hl Ho Ht Hd]; intros Hw Hc D2.
  - destruct Hw as [->|(x & ->)]; [exact D2|]. exfalso. apply Ht. exists x, []. reflexivity.
  - rewrite <- !app_assoc. eapply di_command; eauto. apply IH; [eapply whole_lines_rest; exact Hw| |exact D2].
    intros v m t d K. apply (Hc v m t d). apply in_or_app. now right.
  - rewrite <- !app_assoc. eapply di_mail; eauto.
    + destruct Ht as (ls & H1 & H2 & -> & H4). exists ls. rewrite <- !app_assoc. auto.
    + apply IH; [|intros v mm t d K; apply (Hc v mm t d); rewrite !in_app_iff; now right; right|exact D2].
      destruct Ht as (ls & H1 & H2 & -> & H4). eapply (whole_lines_rest (l ++ CRLF ++ unlines ls ++ end_line)).
      rewrite <- !app_assoc in *. exact Hw.
  - exfalso. inversion Hd; subst. eapply Hc. apply in_or_app. right. left. reflexivity.
Qed.

(** ** Transactions that are still open *)
Lemma says_no (reply : N * bytes) (w : list (obs U)) : says reply w -> forall o, In o w -> exists b, o = OWrite b.
Proof. intros (ws & _ & ->) o Ho. apply in_map_iff in Ho. destruct Ho as (b & <- & _). eauto. Qed.
Definition handled (tr : list (obs U)) : Prop := exists u1 m text cs v, In (OHandle u1 m text cs v) tr.
Definition may_open (s : sess) (tr : list (obs U)) : Prop := se_tx s = None \/ handled tr.
Lemma nothing_open_app a b : nothing_open (a ++ b) -> @nothing_open U b.
Proof. intros H pre u x u' f post ->. apply (H (a ++ pre) u x u' f post). now rewrite <- app_assoc. Qed.
Lemma reacts_handled s l e (s1 : sess) : reacts cfg s l e s1 -> ~ handled e.
Proof.
  intros R (u1 & m & t & cs & v & K).
  inversion R; subst;
    repeat match type of K with In _ (_ ++ _) => apply in_app_or in K; destruct K as [K|K] | In _ (_ :: _) => destruct K as [K|K] | In _ [] => destruct K end;
    try discriminate K;
    match goal with W : says _ ?w, K : In _ ?w |- _ => destruct (says_no _ _ W _ K) as [? E]; discriminate E end.
Qed.
Lemma dialogue_closed (s s2 : sess) b tr : dialogue cfg s b tr s2 -> nothing_open tr -> may_open s tr -> se_tx s2 = None.
Proof.
  intros D. induction D as [s t Ht|s l r e s1 tr s3 Hl Hr Hd IH|s l w e c u m text r e' s1 tr s3 Hl Ho Ht Hd Hd' IH|s l w e c u m text e' s1 Hl Ho Ht Hd]; intros Hn Hm.
  - destruct Hm as [Hm|(u1 & m & x & cs & v & [])]. exact Hm.
  - apply IH; [eapply nothing_open_app; exact Hn|].
    assert (Htr : handled (e ++ tr) -> may_open s1 tr).
    { intros (u1 & m & x & cs & v & K). right. apply in_app_or in K. destruct K as [K|K]; [|exists u1, m, x, cs, v; exact K].
      exfalso. apply (reacts_handled _ _ _ _ Hr). exists u1, m, x, cs, v. exact K. }
    destruct Hm as [Hm|Hm]; [|exact (Htr Hm)]. inversion Hr; subst; cbn [se_tx] in *; try discriminate Hm; try (left; exact Hm); try (left; reflexivity).
    apply Htr. destruct (Hn [ONewMail] u f u' f' (w ++ tr) eq_refl) as (u1 & m & x & cs & v & K). exists u1, m, x, cs, v. right. right. exact K.
  - apply IH; [apply nothing_open_app in Hn; eapply nothing_open_app; exact Hn|]. left. inversion Hd; subst. reflexivity.
  - inversion Hd; subst. reflexivity.
Qed.

(** ** The session is determined *)
Lemma says_det (reply : N * bytes) (w1 w2 : list (obs U)) : says reply w1 -> says reply w2 -> w1 = w2.
Proof. intros (x & F & ->) (y & G & ->). now rewrite (C29_reply_unique _ _ _ _ F G). Qed.
Ltac one := repeat match goal with
  | A : says ?r ?x, B : says ?r ?y |- _ => tryif constr_eq x y then fail else (pose proof (says_det _ _ _ A B); subst y; clear B)
  end.
Lemma reacts_one (s s1 s1' : sess) l e e' : reacts cfg s l e s1 -> reacts cfg s l e' s1' -> e = e' /\ s1 = s1'.
Proof.
  intros A B. destruct A; inversion B; subst;
    repeat match goal with P : command_parse ?l = POk _, Q : command_parse ?l = POk _ |- _ => rewrite Q in P; injection P; intros; subst; clear P end;
    repeat match goal with O : other_command _ |- _ => cbn in O; contradiction O end;
    repeat match goal with N : forall cmd, command_parse ?l <> POk cmd, Q : command_parse ?l = POk _ |- _ => exfalso; exact (N _ Q) end;
    repeat match goal with P : cf_filter_from ?a ?b ?c ?d = _, Q : cf_filter_from ?a ?b ?c ?d = _ |- _ => rewrite Q in P; try discriminate P; injection P; intros; subst; clear P end;
    repeat match goal with P : cf_filter_to ?a ?b ?c ?d ?e = _, Q : cf_filter_to ?a ?b ?c ?d ?e = _ |- _ => rewrite Q in P; try discriminate P; injection P; intros; subst; clear P end;
    repeat match goal with P : cf_filter_data ?a ?b ?c ?d = _, Q : cf_filter_data ?a ?b ?c ?d = _ |- _ => rewrite Q in P; try discriminate P; injection P; intros; subst; clear P end;
    try contradiction; try discriminate; one; auto.
Qed.
Lemma opens_one (s : sess) l e e' c c' u u' m m' : opens cfg s l e c u m -> opens cfg s l e' c' u' m' -> e = e' /\ c = c' /\ u = u' /\ m = m'.
Proof.
  intros A B. destruct A; inversion B; subst.
  match goal with P : cf_filter_data ?a ?b ?c ?d = _, Q : cf_filter_data ?a ?b ?c ?d = _ |- _ => rewrite Q in P; injection P; intros; subst; clear P end.
  one. auto.
Qed.
Lemma reacts_opens (s s1 : sess) l e e' c u m : reacts cfg s l e s1 -> opens cfg s l e' c u m -> False.
Proof.
  intros A B. destruct B. inversion A; subst;
    repeat match goal with P : command_parse ?l = POk _, Q : command_parse ?l = POk _ |- _ => rewrite Q in P; try discriminate P; injection P; intros; subst; clear P end;
    try discriminate; try contradiction; eauto; congruence.
Qed.
Variable k : C -> U -> mail_meta -> bytes -> bool -> decision * C * U.
Hypothesis WM : whole_mail cfg k.
Lemma yields_one c u m text ok r : yields (cf_handle_mail cfg c u m) text ok r -> r = k c u m text ok.
Proof.
  intros Y. destruct (WM c u m) as (stop & f & E & Hs & Hf). rewrite E in Y. inversion Y; subst.
  - match goal with H : stop _ = true |- _ => rewrite Hs in H; discriminate H end.
  - destruct (Hf items) as (g' & Hg & Hd). specialize (Hd ok). destruct (k c u m (concat items) ok) as [[d' c'] u'].
    match goal with X : f items true = HComplete _ |- _ => rewrite Hg in X; injection X as <- end.
    match goal with X : _ = HDone _ _ _ |- _ => rewrite Hd in X; injection X as <- <- <- end. reflexivity.
Qed.
Lemma delivers_one c u m text ok e e' s1 s1' : delivers cfg c u m text ok e s1 -> delivers cfg c u m text ok e' s1' -> e = e' /\ s1 = s1'.
Proof.
  intros A B. inversion A; subst. inversion B; subst.
  match goal with X : yields _ _ _ ?r, Y : yields _ _ _ ?q |- _ => apply yields_one in X; apply yields_one in Y; rewrite <- X in Y; injection Y; intros; subst end.
  one. auto.
Qed.
Lemma interrupted_one wire t t' : interrupted wire t -> interrupted wire t' -> t = t'.
Proof. intros A B. apply dec_interrupted in A. apply dec_interrupted in B. congruence. Qed.
Lemma dialogue_one (s s1 : sess) b tr1 : dialogue cfg s b tr1 s1 -> forall tr2 s2, dialogue cfg s b tr2 s2 -> tr1 = tr2 /\ s1 = s2.
Proof.
  intros D. induction D as [s t Ht|s l r e s1 tr s3 Hl Hr Hd IH|s l w e c u m text r e' s1 tr s3 Hl Ho Ht Hd Hd' IH|s l w e c u m text e' s1 Hl Ho Ht Hd]; intros tr2 s2 D2.
  - apply dialogue_is_line in D2; auto. destruct D2 as [-> ->]. auto.
  - apply dialogue_line in D2; auto. destruct D2 as [(f & s4 & tr4 & R & D4 & ->)|[(f & c & u & m & text & r' & f2 & s4 & tr4 & O & _)|(f & c & u & m & text & f2 & O & _)]];
      try (exfalso; eapply reacts_opens; eauto; fail).
    destruct (reacts_one _ _ _ _ _ _ Hr R) as [<- <-]. destruct (IH _ _ D4) as [<- <-]. auto.
  - apply dialogue_line in D2; auto. destruct D2 as [(f & s4 & tr4 & R & D4 & ->)|[(f & c' & u' & m' & text' & r' & f2 & s4 & tr4 & O & T & De & D4 & ->)|(f & c' & u' & m' & text' & f2 & O & T & _)]].
    + exfalso; eapply reacts_opens; eauto.
    + destruct (opens_one _ _ _ _ _ _ _ _ _ _ Ho O) as (<- & <- & <- & <-). destruct (C01_transfer_unique _ _ _ _ _ Ht T) as [<- <-].
      destruct (delivers_one _ _ _ _ _ _ _ _ _ Hd De) as [<- <-]. destruct (IH _ _ D4) as [<- <-]. auto.
    + exfalso. eapply transfer_not_interrupted; eauto.
  - apply dialogue_line in D2; auto. destruct D2 as [(f & s4 & tr4 & R & D4 & ->)|[(f & c' & u' & m' & text' & r' & f2 & s4 & tr4 & O & T & _)|(f & c' & u' & m' & text' & f2 & O & T & De & ->)]].
    + exfalso; eapply reacts_opens; eauto.
    + exfalso. eapply transfer_not_interrupted; eauto.
    + destruct (opens_one _ _ _ _ _ _ _ _ _ _ Ho O) as (<- & <- & <- & <-). rewrite <- (interrupted_one _ _ _ Ht T) in De.
      destruct (delivers_one _ _ _ _ _ _ _ _ _ Hd De) as [<- <-]. auto.
Qed.
End Fresh.

Definition good {C U} (cfg : config C U) : Prop := all_replies (fun r => sendable_reply r /\ printable_reply r) cfg.
Lemma session {C U W} (cfg : config C U) k (wr : writer W) evs b w c u o s :
  whole_mail cfg k -> good cfg -> reliable wr -> carries evs b -> interact cfg wr (src_of evs) w c u = (o, s) ->
  o = Ret tt /\ exists banner after, st_trace s = banner ++ after /\ says (cf_welcome_banner cfg c) banner
    /\ dialogue cfg (Sess c u None) b after (Sess (st_cfg s) (st_user s) (st_mail s)).
Proof.
  intros Hk Hg Hr Hb E. pose proof (C35_success _ _ _ _ _ _ _ _ _ _ _ Hg (whole_drain _ _ Hk) Hr E) as ->. split; [reflexivity|].
  destruct (C33_session_is_the_dialogue _ _ _ _ _ _ _ _ _ _ (all_replies_impl cfg _ _ (fun r H => proj1 H) Hg) (whole_drain _ _ Hk) E) as (ba & af & T & S & D & _).
  exists ba, af. replace (src_bytes (src_of evs)) with b in D by (symmetry; exact Hb). auto.
Qed.
Lemma closed {C U} (cfg : config C U) c u b ba after s2 : dialogue cfg (Sess c u None) b after s2 -> says (cf_welcome_banner cfg c) ba ->
  nothing_open (ba ++ after) -> se_tx s2 = None.
Proof. intros D S N. eapply dialogue_closed; [exact D|eapply nothing_open_app; exact N|now left]. Qed.

(** What is sent over a connection after something that is done is dealt with as on
    a new connection: nothing but the configuration and the connection's metadata, as
    the user's own code has left them, reaches from one to the other. *)
Theorem C81_as_new : forall C U W (cfg : config C U) k (wr : writer W) b1 b2 evs1 evs2 evs w w1 w2 c u o1 s1 o2 s2 o s,
  whole_mail cfg k -> all_replies (fun r => sendable_reply r /\ printable_reply r) cfg -> reliable wr ->
  carries evs1 b1 -> carries evs2 b2 -> carries evs (b1 ++ b2) ->
  interact cfg wr (src_of evs1) w1 c u = (o1, s1) -> done b1 (st_trace s1) ->
  interact cfg wr (src_of evs2) w2 (st_cfg s1) (st_user s1) = (o2, s2) ->
  interact cfg wr (src_of evs) w c u = (o, s) ->
  exists banner after, st_trace s2 = banner ++ after /\ says (cf_welcome_banner cfg (st_cfg s1)) banner
  /\ st_trace s = st_trace s1 ++ after
  /\ st_cfg s = st_cfg s2 /\ st_user s = st_user s2 /\ st_mail s = st_mail s2 /\ o = o2.
Proof.
  intros C U W cfg k wr b1 b2 evs1 evs2 evs w w1 w2 c u o1 s1 o2 s2 o s Hk Hg Hr H1 H2 H E1 (L & Cu & Op) E2 E.
  destruct (session _ _ _ _ _ _ _ _ _ _ Hk Hg Hr H1 E1) as (-> & ba1 & af1 & T1 & S1 & D1).
  destruct (session _ _ _ _ _ _ _ _ _ _ Hk Hg Hr H2 E2) as (-> & ba2 & af2 & T2 & S2 & D2).
  destruct (session _ _ _ _ _ _ _ _ _ _ Hk Hg Hr H E) as (-> & ba & af & T & S0 & D).
  rewrite T1 in *. pose proof (closed _ _ _ _ _ _ _ D1 S1 Op) as Ho. cbn [se_tx] in Ho. rewrite Ho in D1.
  assert (Cu1 : nothing_cut af1) by (intros v m t d K; apply (Cu v m t d); apply in_or_app; now right).
  pose proof (dialogue_append cfg _ _ _ _ _ _ _ D1 L Cu1 D2) as D3.
  destruct (dialogue_one cfg k Hk _ _ _ _ D _ _ D3) as [-> K]. injection K as K1 K2 K3.
  exists ba2, af2. rewrite (says_det _ _ _ S0 S1) in T. rewrite T, <- app_assoc. auto 10.
Qed.

(** Any number of mails over one connection, or one connection for each: the same. *)
Theorem C81_one_connection_or_many : forall C U W (cfg : config C U) k (wr : writer W) bs afters c u c' u' evs w o s,
  whole_mail cfg k -> all_replies (fun r => sendable_reply r /\ printable_reply r) cfg -> reliable wr ->
  separately cfg wr c u bs afters c' u' -> carries evs (concat bs) ->
  interact cfg wr (src_of evs) w c u = (o, s) ->
  exists banner, says (cf_welcome_banner cfg c) banner /\ st_trace s = banner ++ concat afters
  /\ st_cfg s = c' /\ st_user s = u' /\ st_mail s = None /\ o = Ret tt.
Proof.
  intros C U W cfg k wr bs afters c u c' u' evs w o s Hk Hg Hr Sp H E.
  destruct (session _ _ _ _ _ _ _ _ _ _ Hk Hg Hr H E) as (-> & ba & af & T & S0 & D).
  enough (D' : dialogue cfg (Sess c u None) (concat bs) (concat afters) (Sess c' u' None)).
  { destruct (dialogue_one cfg k Hk _ _ _ _ D _ _ D') as [-> K]. injection K as K1 K2 K3. exists ba. auto 10. }
  clear - Hk Hg Hr Sp. induction Sp as [c u|c u b bs evs w o s ba af afs c' u' Hb E T S0 (L & Cu & Op) Sp IH].
  - cbn. apply di_end. intros (x & y & K). destruct x; discriminate K.
  - destruct (session _ _ _ _ _ _ _ _ _ _ Hk Hg Hr Hb E) as (-> & ba' & af' & T' & S' & D).
    rewrite T in T'. rewrite (says_det _ _ _ S' S0) in T'. apply app_inv_head in T'. subst af'. rewrite T in *.
    pose proof (closed _ _ _ _ _ _ _ D S0 Op) as Ho. cbn [se_tx] in Ho. rewrite Ho in D.
    cbn [concat]. eapply dialogue_append; [exact D|exact L| |exact IH].
    intros v m t d K. apply (Cu v m t d). apply in_or_app. now right.
Qed.

(** A session is determined by the bytes: there are no two dialogues. *)
Theorem C81_one_dialogue : forall C U (cfg : config C U) k (s s1 s2 : @sess C U) b tr1 tr2,
  whole_mail cfg k -> dialogue cfg s b tr1 s1 -> dialogue cfg s b tr2 s2 -> tr1 = tr2 /\ s1 = s2.
Proof. intros. eapply dialogue_one; eauto. Qed.
Print Assumptions C81_as_new.
Print Assumptions C81_one_connection_or_many.
Print Assumptions C81_one_dialogue.

(** A mail that the handler refuses, then one that is accepted, over one connection. *)
Definition piece1 : bytes := ln "MAIL FROM:<test@example.org>" ++ ln "RCPT TO:<foo@example.org>" ++ ln "RCPT TO:<baz@example.org>" ++ ln "DATA" ++ ln "Hello World" ++ ln ".".
Definition piece2 : bytes := ln "NOOP" ++ ln "MAIL FROM:<>" ++ ln "RCPT TO:<foo2@example.org>" ++ ln "DATA" ++ ln "Hello" ++ ln ".".
Definition seen (b : bytes) (c : mails) := interact test_config test_writer (src_of [Chunk b]) tt c tt.
Fixpoint closedb {U} (open : bool) (tr : list (obs U)) : bool :=
  match tr with
  | [] => negb open
  | OFrom _ _ Accept _ _ :: tr => closedb true tr
  | OHandle _ _ _ [false] _ :: _ => false
  | OHandle _ _ _ _ _ :: tr => closedb false tr
  | _ :: tr => closedb open tr
  end.
Lemma closedb_handled {U} (tr : list (obs U)) : forall op, closedb op tr = true -> nothing_cut tr /\ nothing_open tr /\ (op = true -> handled tr).
Proof.
  induction tr as [|x tr IH]; intros op H.
  - split; [intros u m t v []|]. split; [intros [|] u a u' f post K; discriminate K|]. intros ->. discriminate H.
  - assert (G : exists op', closedb op' tr = true /\ (forall u m t v, x <> OHandle u m t [false] v)
        /\ (forall u a u' f, x = OFrom u a Accept u' f -> op' = true) /\ (op = true -> op' = true \/ handled [x])).
    { destruct x as [w| |u a [|code msg] u' f|u m t d u' m' t'|u m d u' m'|u m t cs v]; cbn [closedb] in H;
        try (exists op; split; [exact H|]; split; [congruence|]; split; [congruence|auto]; fail).
      - exists true. split; [exact H|]. split; [congruence|]. auto.
      - destruct cs as [|[|] [|c2 cs]]; try discriminate H; (exists false; split; [exact H|]; split; [congruence|]; split; [congruence|]; intros _; right; repeat eexists; left; reflexivity). }
    destruct G as (op' & H' & G1 & G2 & G3). destruct (IH _ H') as (I1 & I2 & I3). split; [|split].
    + intros u m t v [K|K]; [now apply (G1 u m t v)|now apply (I1 u m t v)].
    + intros [|y pre] u a u' f post K; injection K as -> K; subst.
      * apply I3. now apply (G2 u a u' f).
      * now apply (I2 pre u a u' f).
    + intros Hop. destruct (G3 Hop) as [E|(u1 & m & t & cs & v & [K|[]])].
      * destruct (I3 E) as (u1 & m & t & cs & v & K). exists u1, m, t, cs, v. now right.
      * exists u1, m, t, cs, v. now left.
Qed.
Lemma done_by_run (b x : bytes) (tr : list (obs unit)) : b = x ++ CRLF -> closedb false tr = true -> done b tr.
Proof. intros E H. destruct (closedb_handled tr false H) as (H1 & H2 & _). split; [right; now exists x|]. split; assumption. Qed.

Notation hello := (OWrite (ln "220 test.example.org Service ready")).
Lemma hello_said c : @says unit (cf_welcome_banner test_config c) [hello].
Proof. eapply PropDefault.says_one; [|reflexivity]. apply (one_line _ _ 2 2 0); reflexivity || (vm_compute; lia). Qed.
Lemma one_more b x c c' bs afs c2 : b = x ++ CRLF ->
  closedb false (st_trace (snd (seen b c))) = true -> hd_error (st_trace (snd (seen b c))) = Some hello -> st_cfg (snd (seen b c)) = c' ->
  separately test_config test_writer c' tt bs afs c2 tt ->
  separately test_config test_writer c tt (b :: bs) (tl (st_trace (snd (seen b c))) :: afs) c2 tt.
Proof.
  intros Hb Hc Hh Hs Sp. unfold seen in *. destruct (interact _ _ _ _ _ _) as [o s] eqn:E. cbn [snd] in *.
  refine (sp_cons _ _ _ _ b bs [Chunk b] tt o s [hello] (tl (st_trace s)) afs _ _ _ E _ (hello_said c) (done_by_run _ _ _ Hb Hc) _).
  - unfold carries. cbn. apply app_nil_r.
  - destruct (st_trace s); [discriminate|]. injection Hh as ->. reflexivity.
  - rewrite Hs. destruct (st_user s). exact Sp.
Qed.
(** Three pieces over one connection; the refused content of the first leaves nothing behind. *)
Example C81_example : exists afters c', separately test_config test_writer [] tt [piece1; piece2; piece1] afters c' tt
  /\ map (@length _) afters = [11; 10; 11] /\ length c' = 1.
Proof.
  assert (E2 : exists c1, st_cfg (snd (seen piece2 [])) = c1 /\ length c1 = 1) by (eexists; split; [vm_compute; reflexivity|reflexivity]).
  destruct E2 as (c1 & E2 & L). eexists. exists c1. split; [|split; [|exact L]].
  - refine (one_more piece1 (removelast (removelast piece1)) [] [] _ _ _ _ _ _ _ _); [vm_compute; reflexivity..|].
    refine (one_more piece2 (removelast (removelast piece2)) [] c1 _ _ _ _ _ _ E2 _); [vm_compute; reflexivity..|].
    refine (one_more piece1 (removelast (removelast piece1)) c1 c1 _ _ _ _ _ _ _ (sp_nil _ _ _ _)); [vm_compute; reflexivity|..]; rewrite <- E2; vm_compute; reflexivity.
  - rewrite <- E2. vm_compute. reflexivity.
Qed.

(** Something that is not done does reach further: RSET is not implemented, so the
    transaction stays open and the next MAIL is refused. *)
Example C81_not_done :
  let b1 := ln "MAIL FROM:<>" ++ ln "RSET" in let b2 := ln "MAIL FROM:<>" in
  written (st_trace (snd (seen (b1 ++ b2) []))) = written (st_trace (snd (seen b1 []))) ++ ln "503 Bad sequence of commands"
  /\ written (st_trace (snd (seen b2 []))) = ln "220 test.example.org Service ready" ++ ln "250 Okay"
  /\ closedb false (st_trace (snd (seen b1 []))) = false.
Proof. vm_compute. auto. Qed.
