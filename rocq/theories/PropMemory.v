(** Property C65: what a connection keeps in memory. *)
From Verif Require Import Bytes Nom SmtpString Message Reply Stream SpecData StreamProofs NomLemmas
  Interact RepoSessions InteractProofs SpecPrompt PropServer SpecMemory.

Section Memory.
Variable B : nat.

Lemma fits_new s : (forall b, In (Chunk b) (src_events s) -> length b <= B) -> fits B (prep_new s).
Proof. intros H. split; [exact H|discriminate]. Qed.
Lemma prep_poll_fits p r p' : prep_poll p = (r, p') -> fits B p ->
  fits B p' /\ forall b, r = Ready (Some b) -> length b <= B.
Proof.
  intros E [F1 F2]. unfold prep_poll in E. destruct p as [[evs en ov] [b|]]; cbn in *.
  - injection E as <- <-. split; [split; [exact F1|discriminate]|]. intros b' H. injection H as <-. now apply F2.
  - destruct evs as [|[|b] evs]; cbn in E; injection E as <- <-; cbn.
    + repeat split; [intros b []|discriminate|discriminate].
    + repeat split; [intros b H; apply F1; now right|discriminate|discriminate].
    + repeat split; [intros b' H; apply F1; now right|discriminate|]. intros b' H. injection H as <-. apply F1. now left.
Qed.
Lemma src_next_fits : forall evs en ov r s', src_next evs en ov = (r, s') -> (forall b, In (Chunk b) evs -> length b <= B) ->
  (forall b, In (Chunk b) (src_events s') -> length b <= B) /\ forall b, r = Some b -> length b <= B.
Proof.
  induction evs as [|[|b] evs IH]; intros en ov r s' E F; cbn in E.
  - injection E as <- <-. split; [intros b []|discriminate].
  - apply (IH _ _ _ _ E). intros b H. apply F. now right.
  - injection E as <- <-. split; [intros b' H; apply F; now right|]. intros b' H. injection H as <-. apply F. now left.
Qed.
Lemma prep_next_fits p r p' : prep_next p = (r, p') -> fits B p ->
  fits B p' /\ pr_prepended p' = None /\ forall b, r = Some b -> length b <= B.
Proof.
  intros E [F1 F2]. unfold prep_next in E. destruct (pr_prepended p) as [b|].
  - injection E as <- <-. repeat split; [exact F1|discriminate|]. intros b' H. injection H as <-. now apply F2.
  - destruct (src_next _ _ _) as [r' s'] eqn:S. injection E as <- <-. destruct (src_next_fits _ _ _ _ _ S F1) as [G1 G2].
    repeat split; [exact G1|discriminate|exact G2].
Qed.
Lemma prepend_fits p b p' : prep_prepend p b = Some p' -> length b <= B -> fits B p -> fits B p'.
Proof.
  unfold prep_prepend. destruct (pr_prepended p); [discriminate|]. intros E L [F1 _]. injection E as <-.
  split; [exact F1|]. intros b' H. now injection H as <-.
Qed.

(** Lines *)
Lemma find_crlf_late : forall a b pos, find_sub CRLF a = None -> find_sub CRLF (a ++ b) = Some pos -> length a <= pos + 1.
Proof.
  induction a as [|x a IH]; intros b pos H E; [cbn; lia|].
  cbn [find_sub] in H. destruct (prefixb CRLF (x :: a)) eqn:P; [discriminate|].
  assert (Ha : find_sub CRLF a = None) by (destruct (find_sub CRLF a); [discriminate|reflexivity]).
  cbn [app find_sub] in E. destruct (prefixb CRLF (x :: a ++ b)) eqn:P'.
  - injection E as <-. destruct a as [|y a]; [cbn; lia|]. exfalso. cbn in P, P'. congruence.
  - destruct (find_sub CRLF (a ++ b)) as [q|] eqn:Q; [|discriminate]. injection E as <-. cbn [length]. specialize (IH _ _ Ha Q). lia.
Qed.
Lemma line_loop_fits : forall fuel p buf l p', fits B p -> find_sub CRLF buf = None ->
  next_crlf_line_loop fuel p buf = (Line l, p') -> fits B p'.
Proof.
  induction fuel as [|fuel IH]; intros p buf l p' F Hb E; [discriminate|]. cbn [next_crlf_line_loop] in E.
  destruct (prep_next p) as [[pkt|] p1] eqn:N; destruct (prep_next_fits _ _ _ N F) as (F1 & _ & L).
  - cbv zeta in E. destruct (find_sub CRLF (buf ++ pkt)) as [pos|] eqn:Q.
    + destruct (prep_prepend p1 (skipn (pos + 2) (buf ++ pkt))) as [p2|] eqn:P; [|discriminate]. injection E as _ <-.
      apply (prepend_fits _ _ _ P); [|exact F1]. rewrite skipn_length, app_length. apply find_crlf_late in Q; [|exact Hb].
      specialize (L _ eq_refl). lia.
    + exact (IH _ _ _ _ F1 Q E).
  - destruct (prep_prepend p1 buf); discriminate.
Qed.

(** Messages *)
Definition dsI (d : datastream) : Prop :=
  fits B (ds_source d) /\ length (ds_buf d) <= B + 2 /\ (ds_st d = Finished -> length (ds_buf d) <= B).
Lemma scan_windows_split : forall buf st idx, match snd (scan_windows st idx buf) with
  | Nowhere => True | Eof x => idx <= x /\ x + 3 <= idx + length buf | Escape x => idx <= x /\ x + 3 <= idx + length buf | Unknown _ => False end.
Proof.
  induction buf as [|a tl IH]; intros st idx; [exact I|].
  cbn [scan_windows]. destruct tl as [|b [|c tl']]; [exact I|exact I|].
  assert (G : forall st, match snd (scan_windows st (S idx) (b :: c :: tl')) with
    | Nowhere => True | Eof x => idx <= x /\ x + 3 <= idx + length (a :: b :: c :: tl')
    | Escape x => idx <= x /\ x + 3 <= idx + length (a :: b :: c :: tl') | Unknown _ => False end).
  { intros st0. specialize (IH st0 (S idx)). destruct (snd (scan_windows st0 (S idx) (b :: c :: tl'))); cbn [length] in *; lia. }
  destruct (a =? CR)%N; [apply G|]. destruct st; try apply G.
  - destruct (a =? LF)%N; apply G.
  - destruct (a =? DOT)%N; [|apply G]. destruct ((b =? CR)%N && (c =? LF)%N)%bool; cbn [snd length]; lia.
Qed.
Lemma find_split_bounds st buf : match snd (find_split st buf) with
  | Nowhere => True | Eof x => x + 3 <= length buf | Escape x => x < length buf | Unknown x => x <= length buf /\ length buf <= x + 2 end.
Proof.
  unfold find_split. pose proof (scan_windows_split buf st 0) as H. destruct (scan_windows st 0 buf) as [st1 sp]. cbn [snd] in H.
  destruct sp as [|x|x|x]; cbn [snd]; try lia.
  destruct (Nat.leb_spec 2 (length buf)) as [L|L].
  - unfold scan_last2. destruct st1; repeat match goal with |- context [if ?b then _ else _] => destruct b end; cbn [snd]; try exact I; lia.
  - destruct (Nat.eqb_spec (length buf) 1) as [L1|L1]; [|exact I].
    unfold scan_last1. destruct st1; repeat match goal with |- context [if ?b then _ else _] => destruct b end; cbn [snd]; try exact I; lia.
Qed.
Lemma ds_iter_bounds d r d' : ds_iter d = (r, d') ->
  ds_source d' = ds_source d
  /\ match r with
     | IReturn (Some x) => length x + length (ds_buf d') <= length (ds_buf d)
     | IReturn None | IContinue => length (ds_buf d') <= length (ds_buf d)
     | IRead => length (ds_buf d') <= 2
     end
  /\ (ds_st d <> Finished -> ds_st d' = Finished -> length (ds_buf d') + 3 <= length (ds_buf d)).
Proof.
  unfold ds_iter. pose proof (find_split_bounds (ds_st d) (ds_buf d)) as H.
  assert (Hf : ds_st d <> Finished -> fst (find_split (ds_st d) (ds_buf d)) <> Finished).
  { intros Hn. unfold find_split.
    assert (Hw : forall buf st idx, st <> Finished -> fst (scan_windows st idx buf) <> Finished).
    { clear. induction buf as [|a tl IH]; intros st idx Hs; [exact Hs|].
      cbn [scan_windows]. destruct tl as [|b [|c tl]]; [exact Hs|exact Hs|]. destruct (a =? CR)%N; [apply IH; discriminate|].
      destruct st; try (apply IH; discriminate); try congruence.
      - destruct (a =? LF)%N; apply IH; discriminate.
      - destruct (a =? DOT)%N; [|apply IH; discriminate]. destruct (_ && _)%bool; discriminate. }
    specialize (Hw (ds_buf d) (ds_st d) 0 Hn). destruct (scan_windows (ds_st d) 0 (ds_buf d)) as [st1 sp]. cbn [fst] in Hw.
    destruct sp; try exact Hw. destruct (2 <=? _); [|destruct (_ =? 1); [|exact Hw]].
    - unfold scan_last2. destruct st1; repeat match goal with |- context [if ?b then _ else _] => destruct b end; cbn [fst]; try discriminate; exact Hw.
    - unfold scan_last1. destruct st1; repeat match goal with |- context [if ?b then _ else _] => destruct b end; cbn [fst]; try discriminate; exact Hw. }
  destruct (find_split (ds_st d) (ds_buf d)) as [st1 sp]. cbn [snd fst] in H, Hf. cbv zeta.
  destruct sp as [|x|x|x].
  - destruct (ds_buf d); intros E; injection E as <- <-; cbn [ds_source ds_buf ds_st length]; (split; [reflexivity|split; [lia|tauto]]).
  - assert (L : length (firstn x (ds_buf d)) + length (skipn (x + 3) (ds_buf d)) + 3 <= length (ds_buf d))
      by (rewrite firstn_length, skipn_length; lia).
    destruct (firstn x (ds_buf d)) as [|y res]; intros E; injection E as <- <-; cbn [ds_source ds_buf ds_st length] in *;
      (split; [reflexivity|split; intros; lia]).
  - assert (L : length (firstn x (ds_buf d)) + length (skipn (x + 1) (ds_buf d)) + 1 <= length (ds_buf d))
      by (rewrite firstn_length, skipn_length; lia).
    destruct (firstn x (ds_buf d)) as [|y res]; intros E; injection E as <- <-; cbn [ds_source ds_buf ds_st length] in *;
      (split; [reflexivity|split; [lia|intros; discriminate]]).
  - destruct (Nat.ltb_spec 0 x) as [L|L]; intros E; injection E as <- <-; cbn [ds_source ds_buf ds_st];
      (split; [reflexivity|split; [|intros; tauto]]); [rewrite firstn_length, skipn_length|]; lia.
Qed.
Definition poll_bounds (r : ds_poll_result) (d : datastream) : Prop :=
  match r with
  | DReady (Some x) => length x + length (ds_buf d) <= B + 2
  | DPending => length (ds_buf d) <= 2
  | _ => True
  end.
Lemma ds_poll_loop_fits : forall fuel d r d', dsI d -> ds_st d <> Finished -> ds_poll_loop fuel d = (r, d') -> dsI d' /\ poll_bounds r d'.
Proof.
  induction fuel as [|fuel IH]; intros d r d' (F & L & Hf) Hn E; cbn [ds_poll_loop] in E.
  - injection E as <- <-. repeat split; auto; apply F.
  - destruct (ds_iter d) as [ir d1] eqn:I. destruct (ds_iter_bounds _ _ _ I) as (S & Hb & Ht).
    destruct ir as [x| |].
    + injection E as <- <-. split; [|destruct x; cbn; lia]. unfold dsI. rewrite S. split; [exact F|].
      split; [destruct x; lia|]. intros E1. specialize (Ht Hn E1). lia.
    + destruct (ds_st d1) eqn:Es; try (apply (IH d1 r d'); [|congruence|exact E]; unfold dsI; rewrite S; split; [exact F|split; [lia|congruence]]).
      exfalso. clear - I Es. unfold ds_iter in I. destruct (find_split (ds_st d) (ds_buf d)) as [st1 sp]. destruct sp as [|x|x|x].
      * destruct (ds_buf d); discriminate.
      * destruct (firstn x (ds_buf d)); discriminate.
      * destruct (firstn x (ds_buf d)); [|discriminate]. injection I as <-. discriminate.
      * destruct (0 <? x); discriminate.
    + assert (Hn1 : ds_st d1 <> Finished).
      { intros E1. clear - I Hn E1 Ht Hb. specialize (Ht Hn E1). unfold ds_iter in I.
        destruct (find_split (ds_st d) (ds_buf d)) as [st1 sp]. destruct sp as [|x|x|x].
        - destruct (ds_buf d) eqn:Eb; [|discriminate]. injection I as <-. cbn in Ht. lia.
        - destruct (firstn x (ds_buf d)); discriminate.
        - destruct (firstn x (ds_buf d)); discriminate.
        - destruct (0 <? x); [discriminate|]. injection I as <-. cbn [ds_buf] in Ht. lia. }
      rewrite S in E. destruct (prep_poll (ds_source d)) as [[|[b|]] p] eqn:P; destruct (prep_poll_fits _ _ _ P F) as [F1 Lb].
      * injection E as <- <-. split; [|exact Hb]. split; [exact F1|]. cbn [ds_buf ds_st]. split; [lia|tauto].
      * apply (IH _ _ _) in E; [exact E| |exact Hn1]. split; [exact F1|]. cbn [ds_buf ds_st]. rewrite app_length.
        specialize (Lb _ eq_refl). split; [lia|tauto].
      * injection E as <- <-. split; [|exact Logic.I]. split; [exact F1|]. cbn [ds_buf ds_st]. split; [lia|discriminate].
Qed.
Lemma ds_poll_fits d r d' : dsI d -> ds_poll d = (r, d') -> dsI d' /\ poll_bounds r d'.
Proof.
  intros H E. unfold ds_poll in E. destruct (ds_st d) eqn:Es; try (apply (ds_poll_loop_fits _ _ _ _ H) in E; [exact E|congruence]).
  injection E as <- <-. split; [exact H|exact I].
Qed.
Lemma ds_new_fits p : fits B p -> dsI (ds_new p).
Proof. intros F. split; [exact F|]. cbn. split; [lia|discriminate]. Qed.
Lemma ds_complete_fits d r d' : dsI d -> ds_complete d = (r, d') -> dsI d'.
Proof.
  intros (F & L & Hf) E. unfold ds_complete in E. destruct (ds_st d) eqn:Es; try (injection E as <- <-; split; [exact F|split; [exact L|cbn [ds_st]; congruence]]).
  - destruct (ds_buf d) as [|x b] eqn:Eb.
    + injection E as <- <-. split; [exact F|]. cbn. split; [lia|discriminate].
    + destruct (prep_prepend (ds_source d) (x :: b)) as [p|] eqn:P.
      * injection E as <- <-. split; [|cbn; split; [lia|discriminate]]. exact (prepend_fits _ _ _ P (Hf eq_refl) F).
      * injection E as <- <-. split; [exact F|]. rewrite Eb. split; [exact L|]. intros _. exact (Hf eq_refl).
Qed.
Lemma ds_next_fits d : dsI d -> dsI (snd (ds_next d)).
Proof.
  unfold ds_next. generalize (S (ds_size d)) as fuel. intros fuel. revert d. induction fuel as [|fuel IH]; intros d H; [exact H|].
  cbn [ds_next_loop]. destruct (ds_poll d) as [[x| |] d1] eqn:P; destruct (ds_poll_fits _ _ _ H P) as [H1 _]; [exact H1|now apply IH|exact H1].
Qed.
Lemma ds_until_fits stop : forall fuel acc d, dsI d -> dsI (snd (ds_read_until fuel stop acc d)).
Proof.
  induction fuel as [|fuel IH]; intros acc d H; cbn [ds_read_until]; destruct (stop acc); try exact H.
  pose proof (ds_next_fits d H) as H1. destruct (ds_next d) as [[[b|]|] d1]; cbn [snd] in *; [now apply IH|exact H1|exact H1].
Qed.
Lemma handler_fits {C U} (h : handler C U) : forall d data cs, dsI d -> dsI (snd (run_handler h d data cs)).
Proof.
  induction h as [stop k IH|k IH|q IH|v c u]; intros d data cs H; cbn [run_handler].
  - pose proof (ds_until_fits stop (S (ds_size d)) [] d H) as H1.
    destruct (ds_read_until (S (ds_size d)) stop [] d) as [[[items over]|] d1]; cbn [snd] in *; [now apply IH|exact H1].
  - destruct (ds_complete d) as [[| |] d1] eqn:E; pose proof (ds_complete_fits _ _ _ H E); [now apply IH|now apply IH|assumption].
  - destruct (ds_poll d) as [[x| |] d1] eqn:E; destruct (ds_poll_fits _ _ _ H E) as [H1 _]; [now apply IH|now apply IH|exact H1].
  - exact H.
Qed.
Section Session.
Context {C U W : Type}.
Variable cfg : config C U.
Variable wr : writer W.
Notation state := (@st C U W).
Lemma reply_fits reply (s : state) : fits B (st_reader s) -> fits B (st_reader (snd (send_reply wr reply s))).
Proof.
  intros F. destruct (send_reply wr reply s) as [o s'] eqn:E. destruct (send_reply_weak _ _ _ _ _ E) as ((_ & _ & _ & R) & _).
  cbn. now rewrite R.
Qed.
Lemma then_fits (r : outcome unit * state) (k : unit -> state -> outcome unit * state) : fits B (st_reader (snd r)) ->
  (forall s, fits B (st_reader s) -> fits B (st_reader (snd (k tt s)))) -> fits B (st_reader (snd (andthen r k))).
Proof. intros F Hk. destruct r as [[[]| | |] s]; cbn in *; auto. Qed.
Lemma line_fits line (s : state) : fits B (st_reader s) -> fits B (st_reader (snd (handle_line cfg wr line s))).
Proof.
  intros F. unfold handle_line. destruct (command_parse line) as [cmd| | | |]; try (now apply reply_fits); [|exact F].
  destruct cmd; try (now apply reply_fits).
  - unfold handle_data_cmd. destruct (st_mail s) as [m|]; [|now apply reply_fits]. cbv zeta. destruct (mm_to m).
    + apply then_fits; [now apply reply_fits|]. intros s' F'. exact F'.
    + destruct (cf_filter_data cfg _ _ m) as [[[d c] u] m']. destruct d; (apply then_fits; [now apply reply_fits|]); intros s' F'; [|exact F'].
      unfold receive_mail. pose proof (handler_fits (cf_handle_mail cfg (st_cfg s') (st_user s') m') (ds_new (st_reader s')) [] [] (ds_new_fits _ F')) as (H & _).
      destruct (run_handler _ _ _ _) as [[[o data] cs] d]. cbn [snd] in H. cbv zeta. destruct o as [[[v c'] u']| | |]; try exact H.
      destruct (ds_was_completed d); [|exact H]. destruct v; now apply reply_fits.
  - unfold handle_mail_cmd. destruct (st_mail s); [now apply reply_fits|]. cbv zeta.
    destruct (cf_filter_from cfg _ _ _) as [[[d c] u] f']. destruct d; [apply then_fits; [now apply reply_fits|]; intros s' F'; exact F'|now apply reply_fits].
  - unfold handle_rcpt_cmd. destruct (st_mail s); [|now apply reply_fits]. cbv zeta.
    destruct (cf_filter_to cfg _ _ _ _) as [[[[d c] u] m'] t']. destruct d; now apply reply_fits.
Qed.
Lemma after_lines_fits : forall n (s s' : state), fits B (st_reader s) -> after_lines cfg wr n s = (Ret tt, s') -> fits B (st_reader s').
Proof.
  induction n as [|n IH]; intros s s' F E; cbn [after_lines] in E.
  - injection E as <-. exact F.
  - destruct (next_crlf_line (st_reader s)) as [[l| | |] p] eqn:L; try discriminate.
    assert (Fp : fits B p) by exact (line_loop_fits _ _ [] _ _ F eq_refl L).
    pose proof (line_fits l (set_reader s p) Fp) as F1. destruct (handle_line cfg wr l (set_reader s p)) as [[[]| | |] s1]; try discriminate.
    exact (IH _ _ F1 E).
Qed.
End Session.
End Memory.

(** ** C65 *)
(** While a message is received, whatever its length, the stream keeps two bytes
    besides the packet it works on; what it hands out is not longer. *)
Theorem C65_message_memory : forall B p out last d,
  fits B p -> polled p out last d ->
  length (ds_buf d) <= B + 2
  /\ (last = Some DPending -> length (ds_buf d) <= 2)
  /\ (forall item, last = Some (DReady (Some item)) -> length item + length (ds_buf d) <= B + 2)
  /\ fits B (ds_source d).
Proof.
  intros B p out last d F H.
  assert (G : dsI B d /\ match last with Some r => poll_bounds B r d | None => True end).
  { induction H as [|out last d r d' H IH Hl E]; [split; [now apply ds_new_fits|exact I]|]. destruct IH as [IH _]. now apply (ds_poll_fits B d). }
  destruct G as [(G1 & G2 & _) G3]. split; [exact G2|]. split; [intros ->; exact G3|]. split; [intros item ->; exact G3|exact G1].
Qed.
Print Assumptions C65_message_memory.
(** Behind a line or a message, only the rest of one packet is put back. *)
Theorem C65_put_back : forall B p, fits B p ->
  (forall l p', next_crlf_line p = (Line l, p') -> fits B p')
  /\ (forall items r d', ds_session (ds_new p) = (items, r, d') -> fits B (ds_source d')).
Proof.
  intros B p F. split.
  - intros l p' E. exact (line_loop_fits B _ _ [] _ _ F eq_refl E).
  - intros items r d' E. unfold ds_session, ds_read_all in E.
    assert (G : forall fuel d, dsI B d -> dsI B (snd (ds_read_loop fuel d))).
    { induction fuel as [|fuel IH]; intros d H; cbn [ds_read_loop]; [exact H|]. pose proof (ds_next_fits B d H) as H1.
      destruct (ds_next d) as [[[b|]|] d1]; cbn [snd] in H1; try exact H1. specialize (IH d1 H1).
      destruct (ds_read_loop fuel d1) as [x d2]. exact IH. }
    specialize (G (S (ds_size (ds_new p))) _ (ds_new_fits B p F)). destruct (ds_read_loop _ _) as [x d1]. cbn [snd] in G.
    destruct (ds_complete d1) as [r1 d2] eqn:Ec. injection E as _ _ <-. apply (ds_complete_fits B _ _ _ G Ec).
Qed.
Print Assumptions C65_put_back.
(** In a session, when the server starts to wait for a line it keeps at most the
    rest of one packet, whatever was sent and whatever the handlers did. *)
Theorem C65_session_memory : forall C U W (cfg : config C U) (wr : writer W) B n src w c u s,
  (forall b, In (Chunk b) (src_events src) -> length b <= B) ->
  waits_after cfg wr n src w c u s -> fits B (st_reader s).
Proof.
  intros C U W cfg wr B n src w c u s F H. unfold waits_after in H.
  pose proof (reply_fits B wr (cf_welcome_banner cfg c) (St c u None (prep_new src) w None []) (fits_new B src F)) as F1.
  destruct (send_reply _ _ _) as [[[]| | |] s1]; try discriminate. exact (after_lines_fits B cfg wr n s1 s F1 H).
Qed.
Print Assumptions C65_session_memory.
(** But a line is collected whole: packets of one byte can make it as long as the
    client likes, and what is kept at the end of the connection as well. *)
Theorem C65_lines_are_unbounded : forall n,
  exists p l p', fits 1 p /\ next_crlf_line p = (Line l, p') /\ length l = n + 2
  /\ exists q q' b, fits 1 q /\ next_crlf_line q = (NoLine, q') /\ pr_prepended q' = Some b /\ length b = n.
Proof.
  intros n.
  assert (G : forall m tail fuel acc, find_sub CRLF acc = None -> (forall k, find_sub CRLF (acc ++ repeat 65%N k) = None) ->
    next_crlf_line_loop (m + fuel) (Prep (Src (map (fun c => Chunk [c]) (repeat 65%N m) ++ tail) false 0) None) acc
    = next_crlf_line_loop fuel (Prep (Src tail false 0) None) (acc ++ repeat 65%N m)).
  { induction m as [|m IH]; intros tail fuel acc H1 H2; cbn [repeat map app Nat.add].
    - now rewrite app_nil_r.
    - cbn [next_crlf_line_loop prep_next pr_prepended pr_stream src_events src_ended src_over src_next].
      rewrite (H2 1 : find_sub CRLF (acc ++ [65%N]) = None). rewrite IH.
      + rewrite <- app_assoc. reflexivity.
      + exact (H2 1).
      + intros k. rewrite <- app_assoc. exact (H2 (S k)). }
  assert (R : forall k, find_sub CRLF (repeat 65%N k) = None).
  { induction k as [|k IH]; [reflexivity|]. cbn [repeat find_sub]. rewrite IH. reflexivity. }
  assert (R2 : find_sub CRLF (repeat 65%N n ++ CRLF) = Some n).
  { clear. induction n as [|n IH]; [reflexivity|]. cbn [repeat app find_sub]. rewrite IH. reflexivity. }
  assert (R3 : find_sub CRLF (repeat 65%N n ++ [CR]) = None).
  { clear. induction n as [|n IH]; [reflexivity|]. cbn [repeat app find_sub]. rewrite IH. reflexivity. }
  set (as_ := map (fun c => Chunk [c]) (repeat 65%N n)).
  assert (La : length as_ = n) by (unfold as_; now rewrite map_length, repeat_length).
  assert (Fa : forall b, In (Chunk b) as_ -> length b <= 1).
  { unfold as_. intros b H. apply in_map_iff in H. destruct H as (x & H & _). injection H as <-. cbn. lia. }
  exists (prep_new (src_of (as_ ++ [Chunk [CR]; Chunk [LF]]))), (repeat 65%N n ++ CRLF), (Prep (Src [] false 0) (Some [])).
  split; [|split; [|split; [rewrite app_length, repeat_length; reflexivity|]]].
  - apply fits_new. cbn. intros b H. apply in_app_iff in H. destruct H as [H|[H|[H|[]]]]; [now apply Fa| |]; injection H as <-; cbn; lia.
  - unfold next_crlf_line. cbn [prep_new pr_stream src_of src_events]. rewrite app_length, La.
    replace (n + length [Chunk [CR]; Chunk [LF]] + 2) with (n + 4) by (cbn; lia).
    unfold as_, prep_new, src_of. rewrite (G n _ 4 [] eq_refl R). cbn [app].
    cbn [next_crlf_line_loop prep_next pr_prepended pr_stream src_events src_ended src_over src_next].
    rewrite R3. rewrite <- app_assoc. change ([CR] ++ [LF]) with CRLF. rewrite R2.
    cbn [prep_prepend pr_prepended pr_stream]. rewrite firstn_all2, skipn_all2; [reflexivity| |];
      rewrite app_length, repeat_length; cbn; lia.
  - exists (prep_new (src_of as_)), (Prep (Src [] true 0) (Some (repeat 65%N n))), (repeat 65%N n).
    split; [now apply fits_new|]. split; [|split; [reflexivity|apply repeat_length]].
    unfold next_crlf_line. cbn [prep_new pr_stream src_of src_events]. rewrite La.
    rewrite <- (app_nil_r as_). unfold as_, prep_new, src_of. rewrite (G n [] 2 [] eq_refl R). reflexivity.
Qed.
Print Assumptions C65_lines_are_unbounded.
(** A message in packets of five bytes. *)
Example C65_example :
  let p := prep_new (src_of [Chunk (s2b "abcd" ++ [CR]); Chunk (LF :: s2b ".fgh"); Pend; Chunk (s2b "ij" ++ CRLF ++ s2b "."); Pend; Chunk (CRLF ++ s2b "NOO")]) in
  fits 5 p
  /\ (exists d, polled p (s2b "abcd" ++ CRLF ++ s2b "fghij" ++ CRLF) (Some DPending) d /\ ds_buf d = s2b ".")
  /\ (exists items d', ds_session (ds_new p) = (Some items, CompleteOk, d') /\ pr_prepended (ds_source d') = Some (s2b "NOO")).
Proof.
  intros p. split; [|split].
  - apply fits_new. intros b H. vm_compute in H. repeat destruct H as [H|H]; try discriminate; try (injection H as <-; cbn; lia). destruct H.
  - pose (d := fun n => snd (ds_polls n (ds_new p))). exists (d 6). split; [|vm_compute; reflexivity].
    assert (S : forall n out last r, polled p out last (d n) -> last <> Some (DReady None) -> ds_poll (d n) = (r, d (S n)) ->
      polled p (out ++ match r with DReady (Some b) => b | _ => [] end) (Some r) (d (S n))) by (intros; eapply polled_step; eassumption).
    pose proof (S 0 [] None _ (polled_start p) ltac:(discriminate) ltac:(vm_compute; reflexivity)) as P1.
    pose proof (S 1 _ _ _ P1 ltac:(discriminate) ltac:(vm_compute; reflexivity)) as P2.
    pose proof (S 2 _ _ _ P2 ltac:(discriminate) ltac:(vm_compute; reflexivity)) as P3.
    pose proof (S 3 _ _ _ P3 ltac:(discriminate) ltac:(vm_compute; reflexivity)) as P4.
    pose proof (S 4 _ _ _ P4 ltac:(discriminate) ltac:(vm_compute; reflexivity)) as P5.
    pose proof (S 5 _ _ _ P5 ltac:(discriminate) ltac:(vm_compute; reflexivity)) as P6. exact P6.
  - do 2 eexists. split; [vm_compute; reflexivity|]. vm_compute. reflexivity.
Qed.
