(** Running a handler on a [DataStream]. *)
From Verif Require Import Bytes Nom Message Reply Stream SpecData DataProofs DataLines StreamProofs Interact SpecSession.

(** ** Handlers that drain the stream *)
(** What is still to be read by the handler. *)
Definition ds_todo (d : datastream) : bytes * option bytes :=
  match ds_st d with
  | Finished => ([], Some (ds_buf d ++ unread (ds_source d)))
  | _ => ds_dec d
  end.
Definition good (d : datastream) : Prop := ds_slot d /\ (active (ds_st d) \/ ds_st d = Finished).
Lemma todo_active d : active (ds_st d) -> ds_todo d = ds_dec d.
Proof. unfold ds_todo. now intros [-> | [-> | ->]]. Qed.
Lemma todo_finished d : ds_st d = Finished -> ds_todo d = ([], Some (ds_buf d ++ unread (ds_source d))).
Proof. unfold ds_todo. now intros ->. Qed.

Definition at_end (d0 : datastream) (text : bytes) (d : datastream) : Prop :=
  (ds_st d = Finished /\ ds_todo d0 = (text, Some (ds_buf d ++ unread (ds_source d)))
   /\ over d = over d0 /\ ended d = ended d0)
  \/ (ds_st d = EarlyFin /\ ds_todo d0 = (text, None) /\ unread (ds_source d) = []
      /\ pr_prepended (ds_source d) = None
      /\ over d = over d0 + (if ended d0 then 1 else 0) /\ ended d = true).
Definition until_post (stop : list bytes -> bool) (acc : list bytes) (d : datastream)
  (r : option (list bytes * bool) * datastream) : Prop :=
  match r with
  | (Some (items, false), d') =>
      stop items = true /\ good d' /\ over d' = over d /\ ended d' = ended d
      /\ exists new, items = acc ++ new /\ ds_todo d = padd (concat new) (ds_todo d')
  | (Some (items, true), d') =>
      ds_slot d' /\ exists new, items = acc ++ new /\ at_end d (concat new) d'
  | (None, _) => False
  end.
Lemma ds_read_until_ok stop : forall fuel acc d, good d -> ds_size d < fuel ->
  until_post stop acc d (ds_read_until fuel stop acc d).
Proof.
  induction fuel as [|fuel IH]; intros acc d [Hs Hg] Hf; [lia|]. cbn [ds_read_until].
  destruct (stop acc) eqn:Est.
  { cbn. split; [exact Est|]. split; [now split|]. split; [reflexivity|]. split; [reflexivity|].
    exists []. rewrite app_nil_r. split; [reflexivity|]. cbn. now rewrite padd_nil. }
  destruct Hg as [Ha|Hfin].
  - pose proof (ds_next_ok d Ha Hs) as P. destruct (ds_next d) as [[[b|]|] d1]; cbn [next_post poll_post] in P.
    + destruct P as (Hb & Hs1 & Hsz & Ho & He & Hd).
      assert (Hg1 : good d1 /\ ds_todo d = padd b (ds_todo d1)).
      { rewrite (todo_active d Ha). destruct Hd as [[Ha1 Hd]|[Hf1 Hd]].
        - split; [split; auto|]. now rewrite todo_active.
        - split; [split; auto|]. rewrite (todo_finished d1 Hf1). unfold padd; cbn [fst snd]; rewrite ?app_nil_r; exact Hd. }
      destruct Hg1 as [Hg1 Ht]. specialize (IH (acc ++ [b]) d1 Hg1 ltac:(lia)).
      destruct (ds_read_until fuel stop (acc ++ [b]) d1) as [[[items [|]]|] d2]; cbn [until_post] in IH |- *.
      * destruct IH as (I1 & new & I2 & I3). split; [exact I1|]. exists (b :: new).
        rewrite I2, <- app_assoc. split; [reflexivity|]. unfold at_end in *. rewrite Ho, He in I3.
        destruct I3 as [(J1 & J2 & J3)|(J1 & J2 & J3)]; [left|right]; rewrite Ht, J2; cbn; auto.
      * destruct IH as (I1 & I2 & I3 & I4 & new & I5 & I6). split; [exact I1|]. split; [exact I2|].
        split; [congruence|]. split; [congruence|]. exists (b :: new). rewrite I5, <- app_assoc.
        split; [reflexivity|]. rewrite Ht, I6. unfold padd. destruct (ds_todo d2). cbn. now rewrite app_assoc.
      * exact IH.
    + destruct P as (Hs1 & _ & Hd). cbn [until_post]. split; [exact Hs1|]. exists []. rewrite app_nil_r.
      split; [reflexivity|]. unfold at_end. rewrite (todo_active d Ha). cbn.
      destruct Hd as [(D1 & D2 & D3 & D4)|(D1 & D2 & D3 & D4 & D5 & D6 & D7 & D8)]; [left|right]; auto 10.
    + exact P.
  - rewrite (ds_next_finished d Hfin). cbn [until_post]. split; [exact Hs|]. exists []. rewrite app_nil_r.
    split; [reflexivity|]. left. rewrite (todo_finished d Hfin). auto.
Qed.

Definition drain_result (d0 : datastream) (text : bytes) (ok : bool) (d : datastream) : Prop :=
  ds_st d = Completed
  /\ ((ok = true /\ ds_todo d0 = (text, Some (unread (ds_source d))) /\ over d = over d0 /\ ended d = ended d0)
      \/ (ok = false /\ ds_todo d0 = (text, None) /\ unread (ds_source d) = [] /\ pr_prepended (ds_source d) = None
          /\ over d = over d0 + (if ended d0 then 1 else 0) /\ ended d = true)).
Lemma run_drains {C U} (h : handler C U) : drains h -> forall d data cs, good d ->
  exists r text ok d', run_handler h d data cs = (Ret r, data ++ text, cs ++ [ok], d')
  /\ yields h text ok r /\ drain_result d text ok d'.
Proof.
  induction 1 as [stop f H IH Hend]. intros d data cs Hg. cbn [run_handler].
  pose proof (ds_read_until_ok stop (S (ds_size d)) [] d Hg ltac:(lia)) as P.
  destruct (ds_read_until (S (ds_size d)) stop [] d) as [[[items [|]]|] d1]; cbn [until_post] in P.
  - destruct P as (Hs1 & new & E & P). cbn [app] in E. subst new.
    destruct (Hend items) as (g & Eg & Hgd). rewrite Eg. cbn [run_handler].
    destruct P as [(P1 & P2 & P3 & P4)|(P1 & P2 & P3 & P4 & P5 & P6)].
    + destruct (complete_finished d1 Hs1 P1) as (d2 & -> & Hu & Hc & Ho & He).
      destruct (Hgd true) as (v & c & u & E). rewrite E. cbn [run_handler].
      exists (v, c, u), (concat items), true, d2. split; [reflexivity|]. split; [now apply (yields_end _ _ _ _ g)|].
      split; [exact Hc|]. left. split; [reflexivity|]. split; [now rewrite Hu|]. split; congruence.
    + unfold ds_complete. rewrite P1.
      destruct (Hgd false) as (v & c & u & E). rewrite E. cbn [run_handler].
      exists (v, c, u), (concat items), false, (DS (ds_source d1) Completed (ds_buf d1)).
      split; [reflexivity|]. split; [now apply (yields_end _ _ _ _ g)|].
      split; [reflexivity|]. right. unfold over, ended in *. cbn [ds_source]. auto 10.
  - destruct P as (P1 & P2 & P3 & P4 & new & E & P5). cbn [app] in E. subst new.
    destruct (IH items P1 d1 (data ++ concat items) cs P2) as (r & text & ok & d2 & E2 & Y & R).
    exists r, (concat items ++ text), ok, d2. rewrite app_assoc. split; [exact E2|].
    split; [now constructor|]. destruct R as [R1 R2]. split; [exact R1|]. rewrite P3, P4, P5 in *.
    destruct R2 as [(S1 & S2 & S3)|(S1 & S2 & S3)]; [left|right]; rewrite S2; cbn; auto.
  - destruct P.
Qed.
(** On the connection itself. *)
Lemma run_drains_new {C U} (h : handler C U) p : drains h ->
  exists r text ok d', run_handler h (ds_new p) [] [] = (Ret r, text, [ok], d')
  /\ yields h text ok r /\ ds_st d' = Completed
  /\ ((ok = true /\ transfer (unread p) text (unread (ds_source d'))
       /\ src_over (pr_stream (ds_source d')) = src_over (pr_stream p)
       /\ src_ended (pr_stream (ds_source d')) = src_ended (pr_stream p))
      \/ (ok = false /\ interrupted (unread p) text /\ unread (ds_source d') = []
          /\ pr_prepended (ds_source d') = None
          /\ src_over (pr_stream (ds_source d'))
             = src_over (pr_stream p) + (if src_ended (pr_stream p) then 1 else 0)
          /\ src_ended (pr_stream (ds_source d')) = true)).
Proof.
  intros Hd. destruct (ds_new_active p) as [Ha Hs].
  destruct (run_drains h Hd (ds_new p) [] [] (conj Hs (or_introl Ha))) as (r & text & ok & d' & E & Y & R1 & R2).
  exists r, text, ok, d'. split; [exact E|]. split; [exact Y|]. split; [exact R1|].
  rewrite (todo_active _ Ha), ds_new_dec in R2. unfold over, ended in R2. cbn [ds_new ds_source] in R2.
  destruct R2 as [(S1 & S2 & S3)|(S1 & S2 & S3)]; [left|right].
  - split; [exact S1|]. split; [now apply dec_transfer|exact S3].
  - split; [exact S1|]. split; [now apply dec_interrupted|exact S3].
Qed.

(** ** Handlers that read everything at once *)
Lemma whole_drains {C U} (h : handler C U) k : reads_whole h k -> drains h.
Proof.
  intros (stop & f & -> & Hs & Hf). constructor.
  - intros items E. now rewrite Hs in E.
  - intros items. destruct (Hf items) as (g & E & Hg). exists g. split; [exact E|].
    intros ok. rewrite Hg. destruct (k (concat items) ok) as [[d c] u]. eauto.
Qed.
Lemma whole_yields {C U} (h : handler C U) k text ok r : reads_whole h k -> yields h text ok r -> r = k text ok.
Proof.
  intros (stop & f & -> & Hs & Hf) Y. inversion Y as [? ? items ? ? ? E|? ? items ? g d c u E1 E2]; subst.
  - now rewrite Hs in E.
  - destruct (Hf items) as (g' & E & Hg). rewrite E1 in E. injection E as ->.
    rewrite Hg in E2. destruct (k (concat items) ok) as [[d' c'] u']. congruence.
Qed.

(** ** Any use of the stream *)
Definition tb (d : datastream) : nat := length (ds_buf d) + length (unread (ds_source d)).

Lemma find_split_nil st : find_split st [] = (st, Nowhere).
Proof. reflexivity. Qed.
Lemma scan_windows_completed : forall buf st idx, st <> Completed -> fst (scan_windows st idx buf) <> Completed.
Proof.
  induction buf as [|a buf IH]; intros st idx H; [exact H|].
  cbn [scan_windows]. destruct buf as [|b [|c buf]]; try exact H.
  destruct (a =? CR)%N; [apply IH; discriminate|].
  destruct st; try (apply IH; discriminate); try congruence.
  - destruct (a =? LF)%N; apply IH; discriminate.
  - destruct (a =? DOT)%N; [|apply IH; discriminate]. destruct (_ && _); discriminate.
Qed.
Lemma find_split_completed st buf : st <> Completed -> fst (find_split st buf) <> Completed.
Proof.
  intros H. unfold find_split. pose proof (scan_windows_completed buf st 0 H) as P.
  destruct (scan_windows st 0 buf) as [st1 [| | |]]; cbn [fst] in *; try exact P.
  destruct (Nat.leb 2 (length buf)).
  - unfold scan_last2. destruct st1; repeat match goal with |- context [if ?c then _ else _] => destruct c end;
      cbn; congruence.
  - destruct (Nat.eqb (length buf) 1); [|exact P].
    unfold scan_last1. destruct st1; repeat match goal with |- context [if ?c then _ else _] => destruct c end;
      cbn; congruence.
Qed.
Lemma ds_iter_size d :
  match ds_iter d with
  | (IReturn (Some _), d') | (IContinue, d') =>
      ds_source d' = ds_source d /\ length (ds_buf d') + 1 <= length (ds_buf d)
  | (IReturn None, d') => ds_source d' = ds_source d /\ length (ds_buf d') <= length (ds_buf d)
  | (IRead, d') => ds_source d' = ds_source d /\ ds_buf d' = ds_buf d
  end /\ (ds_st d <> Completed -> ds_st (snd (ds_iter d)) <> Completed).
Proof.
  unfold ds_iter. pose proof (find_split_completed (ds_st d) (ds_buf d)) as Hc.
  destruct (ds_buf d) as [|c buf] eqn:E.
  - rewrite find_split_nil in *. cbn. auto.
  - destruct (find_split (ds_st d) (c :: buf)) as [st sp]; cbn [fst] in Hc. destruct sp as [|x|x|x].
    + cbn. split; [split; [reflexivity|lia]|exact Hc].
    + cbv zeta. assert (L : length (skipn (x + 3) (c :: buf)) + 1 <= length (c :: buf))
        by (rewrite skipn_length; cbn [length]; lia).
      destruct (firstn x (c :: buf)); cbn [ds_source ds_buf ds_st snd]; split; try congruence; split; auto; lia.
    + cbv zeta. assert (L : length (skipn (x + 1) (c :: buf)) + 1 <= length (c :: buf))
        by (rewrite skipn_length; cbn [length]; lia).
      destruct (firstn x (c :: buf)); cbn [ds_source ds_buf ds_st snd]; split; try congruence; split; auto; lia.
    + destruct (Nat.ltb_spec 0 x); cbn [ds_source ds_buf ds_st snd]; split; auto.
      split; auto. rewrite skipn_length. cbn [length]. lia.
Qed.
Definition total_post (d : datastream) (r : ds_poll_result * datastream) : Prop :=
  (ds_st d <> Completed -> ds_st (snd r) <> Completed) /\ tb (snd r) <= tb d /\
  match r with
  | (DReady (Some _), d') | (DPending, d') => ds_size d' + 1 <= ds_size d
  | (DReady None, d') => ds_size d' <= ds_size d
  | (DFuel, _) => False
  end.
Lemma ds_poll_loop_total : forall fuel d, ds_size d < fuel -> total_post d (ds_poll_loop fuel d).
Proof.
  induction fuel as [|fuel IH]; intros d Hf; [lia|]. cbn [ds_poll_loop].
  destruct (ds_iter_size d) as [P Hc]. destruct (ds_iter d) as [[x| |] d1]; cbn [snd] in Hc.
  - destruct x as [b|]; destruct P as [P1 P2]; unfold total_post, tb, ds_size; cbn [snd]; rewrite P1;
      (split; [exact Hc|]; lia).
  - destruct P as [P1 P2]. assert (L : ds_size d1 + 1 <= ds_size d) by (unfold ds_size; rewrite P1; lia).
    specialize (IH d1 ltac:(lia)). destruct IH as (I1 & I2 & I3). split; [auto|].
    split; [unfold tb in *; rewrite P1 in *; lia|].
    destruct (ds_poll_loop fuel d1) as [[[b|]| |] d2]; lia || exact I3.
  - destruct P as [P1 P2]. pose proof (prep_poll_ok (ds_source d1)) as Q.
    assert (Es : ds_size d = length (ds_buf d1) + prep_size (ds_source d1)) by (unfold ds_size; now rewrite P1, P2).
    assert (Et : tb d = tb d1) by (unfold tb; now rewrite P1, P2).
    destruct (prep_poll (ds_source d1)) as [[|[b|]] p'].
    + destruct Q as (Q1 & Q2 & Q3 & _). unfold total_post. cbn [snd ds_st]. split; [exact Hc|].
      unfold tb, ds_size in *. cbn [ds_buf ds_source]. rewrite Q1. lia.
    + destruct Q as (Q1 & Q2 & Q3 & _). specialize (IH (DS p' (ds_st d1) (ds_buf d1 ++ b))).
      assert (L : ds_size (DS p' (ds_st d1) (ds_buf d1 ++ b)) + 1 <= ds_size d).
      { unfold ds_size at 1. cbn [ds_buf ds_source]. rewrite app_length. lia. }
      specialize (IH ltac:(lia)). destruct IH as (I1 & I2 & I3). split; [auto|].
      split; [rewrite Et; unfold tb at 2; rewrite Q1; unfold tb in I2 at 2; cbn [ds_buf ds_source] in I2;
              rewrite app_length in *; lia|].
      destruct (ds_poll_loop fuel _) as [[[b'|]| |] d2]; lia || exact I3.
    + destruct Q as (Q1 & Q2 & Q3 & Q4 & _). unfold total_post. cbn [snd ds_st]. split; [discriminate|].
      unfold tb, ds_size in *. cbn [ds_buf ds_source]. rewrite Q2. cbn. lia.
Qed.
Lemma ds_poll_total d : total_post d (ds_poll d).
Proof.
  unfold ds_poll. pose proof (ds_poll_loop_total (S (ds_size d)) d ltac:(lia)) as P.
  destruct (ds_st d) eqn:E; try exact P. unfold total_post. cbn [snd]. rewrite E. auto.
Qed.
Definition next_total (d : datastream) (r : option (option bytes) * datastream) : Prop :=
  (ds_st d <> Completed -> ds_st (snd r) <> Completed) /\ tb (snd r) <= tb d /\
  match r with
  | (Some (Some _), d') => ds_size d' + 1 <= ds_size d
  | (Some None, d') => ds_size d' <= ds_size d
  | (None, _) => False
  end.
Lemma ds_next_loop_total : forall fuel d, ds_size d < fuel -> next_total d (ds_next_loop fuel d).
Proof.
  induction fuel as [|fuel IH]; intros d Hf; [lia|]. cbn [ds_next_loop].
  pose proof (ds_poll_total d) as (P1 & P2 & P3). destruct (ds_poll d) as [[x| |] d1]; cbn [snd] in *.
  - unfold next_total. cbn [snd]. destruct x; auto.
  - destruct (IH d1 ltac:(lia)) as (I1 & I2 & I3). unfold next_total in *.
    destruct (ds_next_loop fuel d1) as [[[b|]|] d2]; cbn [snd] in *; repeat split; auto; lia.
  - destruct P3.
Qed.
Lemma ds_next_total d : next_total d (ds_next d).
Proof. apply ds_next_loop_total. lia. Qed.
Lemma ds_read_until_total stop : forall fuel acc d, ds_size d < fuel ->
  exists items over d', ds_read_until fuel stop acc d = (Some (items, over), d')
  /\ (ds_st d <> Completed -> ds_st d' <> Completed) /\ tb d' <= tb d /\ ds_size d' <= ds_size d.
Proof.
  induction fuel as [|fuel IH]; intros acc d Hf; [lia|]. cbn [ds_read_until].
  destruct (stop acc); [do 3 eexists; split; [reflexivity|]; auto|].
  pose proof (ds_next_total d) as (P1 & P2 & P3). destruct (ds_next d) as [[[b|]|] d1]; cbn [snd] in *.
  - destruct (IH (acc ++ [b]) d1 ltac:(lia)) as (items & ov & d2 & -> & I1 & I2 & I3).
    do 3 eexists. split; [reflexivity|]. repeat split; auto; lia.
  - do 3 eexists. split; [reflexivity|]. repeat split; auto; lia.
  - destruct P3.
Qed.
Lemma prep_size_prepend p b p' : prep_prepend p b = Some p' ->
  unread p' = b ++ unread p /\ prep_size p' = S (length b) + prep_size p
  /\ src_over (pr_stream p') = src_over (pr_stream p) /\ src_ended (pr_stream p') = src_ended (pr_stream p).
Proof.
  unfold prep_prepend. destruct p as [s [x|]]; cbn; [discriminate|]. intros H. injection H as <-.
  unfold unread, prep_size. cbn. auto.
Qed.
Lemma ds_complete_total d r d' : ds_complete d = (r, d') -> tb d' <= tb d
  /\ (r = CompletePanic -> ds_st d <> Completed -> ds_st d' <> Completed).
Proof.
  unfold ds_complete. destruct (ds_st d) eqn:E; intros H; try (injection H as <- <-; split; [lia|congruence]).
  - destruct (ds_buf d) as [|x b] eqn:Eb.
    + injection H as <- <-. unfold tb. cbn. rewrite Eb. cbn. split; [lia|discriminate].
    + destruct (prep_prepend (ds_source d) (x :: b)) as [p|] eqn:Ep; injection H as <- <-.
      * apply prep_size_prepend in Ep. unfold tb. destruct Ep as (E1 & _). cbn [ds_source ds_buf].
        rewrite E1, Eb, app_length. cbn. split; [lia|discriminate].
      * split; [lia|congruence].
  - injection H as <- <-. unfold tb. cbn. split; [lia|discriminate].
Qed.

(** The outcome of any handler. *)
Lemma run_handler_total {C U} : forall (h : handler C U) d data cs r data' cs' d',
  run_handler h d data cs = (r, data', cs', d') ->
  tb d' <= tb d /\ r <> NoFuel /\ r <> WriteErr
  /\ (exists more, cs' = cs ++ more)
  /\ (cs' = cs -> ds_st d <> Completed -> ds_st d' <> Completed).
Proof.
  induction h as [stop f IH|g IH|q IH|v c u]; intros d data cs r data' cs' d' H; cbn [run_handler] in H.
  - destruct (ds_read_until_total stop (S (ds_size d)) [] d ltac:(lia)) as (items & ov & d1 & E & I1 & I2 & I3).
    rewrite E in H. apply IH in H. destruct H as (H1 & H2 & H3 & H4 & H5). repeat split; auto. lia.
  - destruct (ds_complete d) as [[| |] d1] eqn:E; pose proof (ds_complete_total _ _ _ E) as [T1 T2].
    + apply IH in H. destruct H as (H1 & H2 & H3 & (more & H4) & H5). repeat split; auto; [lia| |].
      * exists (true :: more). rewrite H4, <- app_assoc. reflexivity.
      * intros Hc. exfalso. rewrite Hc in H4. apply (f_equal (@length bool)) in H4.
        rewrite !app_length in H4. cbn in H4. lia.
    + apply IH in H. destruct H as (H1 & H2 & H3 & (more & H4) & H5). repeat split; auto; [lia| |].
      * exists (false :: more). rewrite H4, <- app_assoc. reflexivity.
      * intros Hc. exfalso. rewrite Hc in H4. apply (f_equal (@length bool)) in H4.
        rewrite !app_length in H4. cbn in H4. lia.
    + injection H as <- <- <- <-. repeat split; try discriminate; auto. exists []. now rewrite app_nil_r.
  - pose proof (ds_poll_total d) as (P1 & P2 & P3). destruct (ds_poll d) as [[x| |] d1]; cbn [snd] in *; [| |destruct P3];
      (apply IH in H; destruct H as (H1 & H2 & H3 & H4 & H5); repeat split; auto; lia).
  - injection H as <- <- <- <-. repeat split; try discriminate; auto. exists []. now rewrite app_nil_r.
Qed.
