(** Properties C01-C12: message transfer and line reading. *)
From Verif Require Import Bytes Stream SpecData DataProofs DataLines SinkProofs StreamProofs.

(** ** C01 *)
Theorem C01_data_decoding_exact : forall p : prependable,
  exists items c d', ds_session (ds_new p) = (Some items, c, d')
  /\ (c = CompleteOk <-> exists out rest, transfer (unread p) out rest)
  /\ (forall out rest, transfer (unread p) out rest -> concat items = out).
Proof.
  intros p. pose proof (ds_session_ok p) as H.
  destruct (ds_session (ds_new p)) as [[[items|] c] d']; [|destruct H].
  exists items, c, d'. split; [reflexivity|].
  destruct H as (_ & _ & [(-> & Hd & _)|(-> & Hd & _)]).
  - split; [split; [|reflexivity]|].
    + intros _. exists (concat items), (unread (ds_source d')). now apply dec_transfer.
    + intros out rest H. apply dec_transfer in H. congruence.
  - split; [split; [discriminate|]|]; intros out; [destruct out as (out & rest & H)|intros rest H];
      apply dec_transfer in H; congruence.
Qed.
Print Assumptions C01_data_decoding_exact.

(** The specification determines text and rest. *)
Theorem C01_transfer_unique : forall wire o1 r1 o2 r2,
  transfer wire o1 r1 -> transfer wire o2 r2 -> o1 = o2 /\ r1 = r2.
Proof.
  intros wire o1 r1 o2 r2 H1 H2. apply dec_transfer in H1, H2. split; congruence.
Qed.
Print Assumptions C01_transfer_unique.

(** Cut into packets in the middle of the terminator and of an escape. *)
Definition split_source : prependable :=
  prep_new (src_of [Chunk (s2b "a"); Pend; Chunk CRLF; Chunk [DOT]; Chunk (DOT :: s2b "b");
                    Pend; Chunk [CR]; Chunk [LF; DOT]; Pend; Chunk [CR]; Chunk (LF :: s2b "QUIT" ++ CRLF)]).
Example C01_example :
  transfer (unread split_source)
    (s2b "a" ++ CRLF ++ s2b ".b" ++ CRLF) (s2b "QUIT" ++ CRLF)
  /\ snd (fst (ds_session (ds_new split_source))) = CompleteOk.
Proof.
  split; [|reflexivity]. apply dec_transfer. reflexivity.
Qed.

(** ** C02 *)
Theorem C02_packetisation_invisible : forall p1 p2 : prependable,
  unread p1 = unread p2 ->
  exists items1 items2 c d1 d2,
    ds_session (ds_new p1) = (Some items1, c, d1)
    /\ ds_session (ds_new p2) = (Some items2, c, d2)
    /\ concat items1 = concat items2
    /\ unread (ds_source d1) = unread (ds_source d2).
Proof.
  intros p1 p2 E. pose proof (ds_session_ok p1) as H1. pose proof (ds_session_ok p2) as H2.
  destruct (ds_session (ds_new p1)) as [[[i1|] c1] d1]; [|destruct H1].
  destruct (ds_session (ds_new p2)) as [[[i2|] c2] d2]; [|destruct H2].
  unfold session_post in *. rewrite E in H1.
  destruct H1 as (_ & _ & [(-> & Hd1 & _)|(-> & Hd1 & Hu1 & _)]);
    destruct H2 as (_ & _ & [(-> & Hd2 & _)|(-> & Hd2 & Hu2 & _)]); rewrite Hd1 in Hd2;
    try discriminate; injection Hd2; intros; do 5 eexists; repeat split; try congruence.
Qed.
Print Assumptions C02_packetisation_invisible.
Example C02_example :
  unread split_source = unread (prep_new (src_of [Chunk (unread split_source)])).
Proof. reflexivity. Qed.

(** ** C03 *)
Theorem C03_pipelined_bytes_preserved : forall p items d',
  ds_session (ds_new p) = (Some items, CompleteOk, d') ->
  exists later p', prep_read_all (ds_source d') = (Some later, p')
  /\ transfer (unread p) (concat items) (concat later).
Proof.
  intros p items d' E. pose proof (ds_session_ok p) as H. rewrite E in H.
  destruct H as (_ & _ & [(_ & Hd & _)|(C & _)]); [|discriminate].
  destruct (prep_read_all_ok (ds_source d')) as (later & p' & Er & Hc).
  exists later, p'. split; [exact Er|]. rewrite Hc. now apply dec_transfer.
Qed.
Print Assumptions C03_pipelined_bytes_preserved.
Example C03_example : exists items d',
  ds_session (ds_new split_source) = (Some items, CompleteOk, d').
Proof. do 2 eexists. vm_compute. reflexivity. Qed.

(** ** C04 *)
Theorem C04_interrupted_is_err : forall p items c d',
  ds_session (ds_new p) = (Some items, c, d') ->
  (c = CompleteErr <-> exists out, interrupted (unread p) out)
  /\ (forall out, interrupted (unread p) out -> concat items = out).
Proof.
  intros p items c d' E. pose proof (ds_session_ok p) as H. rewrite E in H.
  destruct H as (_ & _ & [(-> & Hd & _)|(-> & Hd & _)]).
  - split; [split; [discriminate|]|]; intros out; [destruct out as (out & H)|intros H];
      apply dec_interrupted in H; congruence.
  - split; [split; [|reflexivity]|].
    + intros _. exists (concat items). now apply dec_interrupted.
    + intros out H. apply dec_interrupted in H. congruence.
Qed.
Print Assumptions C04_interrupted_is_err.

Theorem C04_truncated_never_complete : forall ok ms s sent w x p items c d',
  sink_send_all ok sink_new ms = (s, SkOk) -> sink_end ok s = (sent, SkOk) ->
  concat sent = w ++ x -> x <> [] -> unread p = w ->
  ds_session (ds_new p) = (Some items, c, d') ->
  c = CompleteErr /\ exists missing, normalised (concat ms) (concat items ++ missing).
Proof.
  intros ok ms s sent w x p items c d' Hs He Hw Hx Hp Es.
  pose proof (sink_send_all_ok ok ms sink_new) as H1. rewrite Hs in H1. destruct H1 as [H1 H2].
  pose proof (sink_end_ok ok s) as H3. rewrite He in H3. rewrite H1, H2 in H3.
  change (concat (sk_sent sink_new)) with (@nil N) in H3. cbn [app sk_state sink_new] in H3.
  pose proof (enc_message (concat ms)) as Hm. rewrite <- H3, Hw in Hm.
  destruct (encoding_transfer _ _ [] Hm) as (out & Hn & Ht). rewrite app_nil_r in Ht.
  apply dec_transfer in Ht.
  destruct (dec_strict_prefix w x out [] Ht) as (o1 & o2 & Hd & ->).
  { destruct x; [congruence|cbn; lia]. }
  pose proof (ds_session_ok p) as H. rewrite Es in H. rewrite <- Hp in Hd.
  destruct H as (_ & _ & [(_ & Hd' & _)|(-> & Hd' & _)]); rewrite Hd in Hd'; [discriminate|].
  injection Hd' as <-. split; [reflexivity|]. eauto.
Qed.
Print Assumptions C04_truncated_never_complete.
Definition sink_accept : sink_oracle := fun _ _ => PutOk.
Example C04_example : exists s sent,
  sink_send_all sink_accept sink_new [s2b "a" ++ CRLF; s2b ".b"] = (s, SkOk)
  /\ sink_end sink_accept s = (sent, SkOk)
  /\ concat sent = (s2b "a" ++ CRLF ++ s2b "..b" ++ CRLF ++ [DOT; CR]) ++ [LF].
Proof. do 2 eexists. vm_compute. repeat split; reflexivity. Qed.

(** ** C05 *)
Theorem C05_items_nonempty : forall d b d', ds_poll d = (DReady (Some b), d') -> b <> [].
Proof. exact ds_poll_nonempty. Qed.
Print Assumptions C05_items_nonempty.
Theorem C05_stays_finished : forall d d' n,
  ds_complete d = (CompleteOk, d') -> ds_polls n d = (repeat (DReady None) n, d).
Proof. intros d d' n H. apply ds_polls_finished. now apply ds_complete_Ok_finished in H. Qed.
Print Assumptions C05_stays_finished.
Example C05_example : exists d',
  ds_complete (snd (ds_read_all (ds_new split_source))) = (CompleteOk, d').
Proof. eexists. vm_compute. reflexivity. Qed.
(** After an early end, polling again is not refused: it gives the bytes held
    back, and the stream can no longer be completed. *)
Theorem C05_after_early_end_refuted : exists p d1 d2,
  ds_poll (ds_new p) = (DReady None, d1) /\ fst (ds_complete d1) = CompleteErr
  /\ ds_poll d1 = (DReady (Some [DOT]), d2) /\ fst (ds_complete d2) = CompletePanic.
Proof.
  exists (prep_new (src_of [Chunk [DOT]])). do 2 eexists. vm_compute. repeat split; reflexivity.
Qed.
Print Assumptions C05_after_early_end_refuted.
(** After [complete], polling gives the bytes that follow the message. *)
Theorem C05_after_complete_refuted : exists p d1 d2 b,
  ds_session (ds_new p) = (Some [], CompleteOk, d1) /\ ds_poll d1 = (DReady (Some b), d2)
  /\ b = s2b "QUIT" ++ CRLF.
Proof.
  exists (prep_new (src_of [Chunk ([DOT] ++ CRLF ++ s2b "QUIT" ++ CRLF)])). do 3 eexists.
  vm_compute. repeat split; reflexivity.
Qed.
Print Assumptions C05_after_complete_refuted.

(** ** C06 *)
Theorem C06_sink_output_exact : forall ok ms s sent,
  sink_send_all ok sink_new ms = (s, SkOk) -> sink_end ok s = (sent, SkOk) ->
  message_encoding (concat ms) (concat sent).
Proof.
  intros ok ms s sent Hs He.
  pose proof (sink_send_all_ok ok ms sink_new) as H1. rewrite Hs in H1. destruct H1 as [H1 H2].
  pose proof (sink_end_ok ok s) as H3. rewrite He in H3. rewrite H1, H2 in H3.
  change (concat (sk_sent sink_new)) with (@nil N) in H3. cbn [app sk_state sink_new] in H3.
  rewrite H3. apply enc_message.
Qed.
Print Assumptions C06_sink_output_exact.
Theorem C06_encoding_unique : forall m w w',
  message_encoding m w -> message_encoding m w' -> w = w'.
Proof. exact message_encoding_unique. Qed.
Print Assumptions C06_encoding_unique.
(** The sink always terminates; it fails only if the underlying sink does. *)
Theorem C06_sink_total : forall ok ms,
  snd (sink_send_all ok sink_new ms) <> SkFuel
  /\ ((forall sent b, ok sent b = PutOk) -> snd (sink_send_all ok sink_new ms) = SkOk).
Proof.
  intros ok ms. split.
  - pose proof (sink_send_all_ok ok ms sink_new) as H. intros C.
    destruct (sink_send_all ok sink_new ms) as [s [| |]]; try discriminate. exact H.
  - intros Hok.
    assert (Hl : forall fuel s item, snd (sink_send_loop fuel ok s item) <> SkErr).
    { induction fuel as [|fuel IH]; intros s item; [discriminate|]. cbn [sink_send_loop].
      destruct (sink_scan (sk_state s) 0 item) as [st [k|]]; unfold sink_put; rewrite Hok;
        [apply IH|discriminate]. }
    generalize sink_new. induction ms as [|m ms IH]; intros s; [reflexivity|].
    cbn [sink_send_all]. pose proof (sink_send_ok ok s m) as H1. pose proof (Hl (length m + 2) s m) as H2.
    unfold sink_send in *.
    destruct (sink_send_loop (length m + 2) ok s m) as [s' [| |]]; [apply IH|cbn in H2; congruence|destruct H1].
Qed.
Print Assumptions C06_sink_total.
Example C06_example : exists s sent,
  sink_send_all sink_accept sink_new [[CR]; [LF; DOT]; [DOT]] = (s, SkOk)
  /\ sink_end sink_accept s = (sent, SkOk)
  /\ concat sent = CRLF ++ s2b "..." ++ CRLF ++ [DOT] ++ CRLF.
Proof. do 2 eexists. vm_compute. repeat split; reflexivity. Qed.

(** ** C07 *)
Theorem C07_sink_stream_roundtrip : forall ok ms s sent evs rest,
  sink_send_all ok sink_new ms = (s, SkOk) -> sink_end ok s = (sent, SkOk) ->
  carries evs (concat sent ++ rest) ->
  exists items d' later p',
    ds_session (ds_new (prep_new (src_of evs))) = (Some items, CompleteOk, d')
    /\ normalised (concat ms) (concat items)
    /\ prep_read_all (ds_source d') = (Some later, p') /\ concat later = rest.
Proof.
  intros ok ms s sent evs rest Hs He Hw.
  pose proof (C06_sink_output_exact ok ms s sent Hs He) as Hm.
  destruct (encoding_transfer _ _ rest Hm) as (out & Hn & Ht).
  set (p := prep_new (src_of evs)).
  assert (Hp : unread p = concat sent ++ rest) by exact Hw.
  rewrite <- Hp in Ht.
  destruct (C01_data_decoding_exact p) as (items & c & d' & E & Hc & Ho).
  assert (c = CompleteOk) as -> by (apply Hc; eauto).
  destruct (C03_pipelined_bytes_preserved p items d' E) as (later & p' & Er & Ht').
  destruct (C01_transfer_unique _ _ _ _ _ Ht Ht') as [-> ->].
  exists items, d', later, p'. auto.
Qed.
Print Assumptions C07_sink_stream_roundtrip.
(** [normalised] determines its result. *)
Theorem C07_normalised_unique : forall m o1 o2, normalised m o1 -> normalised m o2 -> o1 = o2.
Proof. unfold normalised. intuition congruence. Qed.
Print Assumptions C07_normalised_unique.
Example C07_example :
  carries [Chunk CRLF; Pend; Chunk (s2b "..."); Chunk [CR]; Chunk [LF]; Chunk [DOT; CR]; Chunk (LF :: s2b "x")]
    ((CRLF ++ s2b "..." ++ CRLF ++ [DOT] ++ CRLF) ++ s2b "x").
Proof. reflexivity. Qed.

(** ** C08 *)
(** Of what was sent only a part may have reached the receiver. *)
Theorem C08_no_early_end : forall ok ms s r p lost items c d',
  sink_send_all ok sink_new ms = (s, r) ->
  concat (sk_sent s) = unread p ++ lost ->
  ds_session (ds_new p) = (Some items, c, d') ->
  c = CompleteErr /\ exists more, concat ms = concat items ++ more.
Proof.
  intros ok ms s r p lost items c d' Hs Hp Es.
  pose proof (sink_send_all_ok ok ms sink_new) as H1. rewrite Hs in H1.
  assert (Hw : exists x, fst (enc SkCrLfPassed (concat ms)) = concat (sk_sent s) ++ x).
  { destruct r; [|destruct H1 as (w & E & x & Hx)|destruct H1].
    - destruct H1 as [H1 _]. exists []. rewrite app_nil_r. exact (eq_sym H1).
    - cbn in E. exists x. rewrite E. exact Hx. }
  destruct Hw as [x Hw]. pose proof (dec_enc (concat ms)) as Hd. rewrite Hw, Hp, <- app_assoc in Hd.
  destruct (dec_prefix_None _ _ _ Hd) as (o1 & o2 & Hd1 & Ho).
  pose proof (ds_session_ok p) as H. rewrite Es in H.
  destruct H as (_ & _ & [(_ & Hd' & _)|(-> & Hd' & _)]); rewrite Hd1 in Hd'; [discriminate|].
  injection Hd' as <-. split; [reflexivity|]. eauto.
Qed.
Print Assumptions C08_no_early_end.
(** Whatever [end] returned: a receiver that reports the message complete has
    all of it, and got everything that was sent. *)
Theorem C08_complete_is_whole : forall ok ms s sent r p lost items c d',
  sink_send_all ok sink_new ms = (s, SkOk) -> sink_end ok s = (sent, r) ->
  concat sent = unread p ++ lost ->
  ds_session (ds_new p) = (Some items, c, d') ->
  (c = CompleteErr /\ exists missing, normalised (concat ms) (concat items ++ missing))
  \/ (c = CompleteOk /\ normalised (concat ms) (concat items) /\ lost = []).
Proof.
  intros ok ms s sent r p lost items c d' Hs He Hp Es.
  assert (Hc : sent = sk_sent s \/ message_encoding (concat ms) (concat sent)).
  { pose proof (sink_send_all_ok ok ms sink_new) as H1. rewrite Hs in H1. destruct H1 as [H1 H2].
    assert (X : concat sent = concat (sk_sent s) ++ fin (sk_state s) -> message_encoding (concat ms) (concat sent)).
    { intros ->. rewrite H1, H2. apply enc_message. }
    pose proof (sink_end_ok ok s) as H3. rewrite He in H3. destruct r; [auto|destruct H3; auto|destruct H3]. }
  destruct Hc as [->|Hm].
  - destruct (C08_no_early_end _ _ _ _ _ _ _ _ _ Hs Hp Es) as [-> (more & Hm)]. left. split; [reflexivity|].
    assert (exists out, normalised (concat ms) out) as (out & Hn).
    { destruct (encoding_transfer _ _ [] (enc_message (concat ms))) as (out & Hn & _). eauto. }
    destruct Hn as [[? ->]|[? ->]]; rewrite Hm.
    + exists more. left. rewrite <- Hm. auto.
    + exists (more ++ CRLF). right. rewrite <- Hm. split; [assumption|]. now rewrite Hm, <- app_assoc.
  - destruct (encoding_transfer _ _ [] Hm) as (out & Hn & Ht). rewrite app_nil_r, Hp in Ht.
    apply dec_transfer in Ht. pose proof (ds_session_ok p) as H. rewrite Es in H.
    destruct lost as [|x lost].
    + rewrite app_nil_r in Ht. destruct H as (_ & _ & [(-> & Hd' & _)|(-> & Hd' & _)]); rewrite Ht in Hd'; [|discriminate].
      right. injection Hd' as <- _. auto.
    + destruct (dec_strict_prefix (unread p) (x :: lost) out [] Ht) as (o1 & o2 & Hd & ->); [cbn; lia|].
      destruct H as (_ & _ & [(_ & Hd' & _)|(-> & Hd' & _)]); rewrite Hd in Hd'; [discriminate|].
      left. injection Hd' as <-. eauto.
Qed.
Print Assumptions C08_complete_is_whole.
(** A failing [end] may have completed the message all the same, or not. *)
Example C08_failed_end : forall taken, exists s sent c,
  sink_send_all sink_accept sink_new [s2b "hi"] = (s, SkOk)
  /\ sink_end (fun _ _ => if taken : bool then PutTaken else PutRefused) s = (sent, SkErr)
  /\ snd (fst (ds_session (ds_new (prep_new (src_of [Chunk (concat sent)]))))) = c
  /\ c = if taken then CompleteOk else CompleteErr.
Proof. intros [|]; do 3 eexists; vm_compute; repeat split; reflexivity. Qed.
Example C08_example : exists s r,
  sink_send_all (fun sent _ => if Nat.ltb (length sent) 1 then PutOk else PutTaken) sink_new
    [s2b "a" ++ CRLF ++ [DOT] ++ CRLF; s2b "b"] = (s, r)
  /\ r = SkErr /\ concat (sk_sent s) = s2b "a" ++ CRLF ++ [DOT; DOT] ++ CRLF.
Proof. do 2 eexists. vm_compute. repeat split; reflexivity. Qed.
(** The caller must stop at the first error: if it ignores one and goes on
    sending, the message can end early. *)
Theorem C08_ignoring_errors_refuted : exists ok s1 s2 s3,
  sink_send ok sink_new (DOT :: CRLF) = (s1, SkErr)
  /\ sink_send ok s1 CRLF = (s2, SkOk) /\ sink_send ok s2 (s2b "more") = (s3, SkOk)
  /\ forall p, unread p = concat (sk_sent s3) ->
     snd (fst (ds_session (ds_new p))) = CompleteOk.
Proof.
  exists (fun sent b => if negb (Nat.eqb (length sent) 1) || negb (Nat.eqb (length b) 3) then PutOk else PutRefused).
  do 3 eexists. split; [vm_compute; reflexivity|]. split; [vm_compute; reflexivity|].
  split; [vm_compute; reflexivity|].
  intros p Hp. cbn in Hp. pose proof (C01_data_decoding_exact p) as (items & c & d' & -> & H & _).
  apply H. exists [], (s2b "more"). apply dec_transfer. rewrite Hp. reflexivity.
Qed.
Print Assumptions C08_ignoring_errors_refuted.

(** ** C09 *)
Theorem C09_complete_panics_exactly : forall p out last d,
  polled p out last d ->
  (fst (ds_complete d) <> CompletePanic <->
   last = Some (DReady None)
   \/ transfer (unread p) out (ds_buf d ++ unread (ds_source d))).
Proof.
  intros p out last d H. apply polled_ok in H.
  destruct H as [Hs [(Ha & Hl & Hd & _)|[(Hf & Hd & _)|(Hf & Hl & _)]]].
  - split.
    + intros C. exfalso. apply C. unfold ds_complete.
      destruct Ha as [-> | [-> | ->]]; reflexivity.
    + intros [C|C]; [congruence|]. apply dec_transfer in C. rewrite C in Hd.
      unfold padd, ds_dec in Hd. remember (ds_buf d ++ unread (ds_source d)) as w.
      injection Hd as _ Hd. clear -Hd Ha. exfalso.
      assert (Hlt : forall l st o r, dec st l = (o, Some r) -> length r < length l).
      { clear. induction l as [|a l IH]; intros st o r H; [discriminate|].
        assert (Hc : forall s, cons1 a (dec s l) = (o, Some r) -> length r < S (length l)).
        { intros s E. destruct (dec s l) as [o' r'] eqn:Ed. injection E as _ ->.
          apply IH in Ed. lia. }
        cbn [dec length] in *. destruct (a =? CR)%N; [eauto|].
        destruct st; eauto.
        - destruct (a =? LF)%N; eauto.
        - destruct (a =? DOT)%N; [|eauto]. destruct l as [|y [|z l]]; [discriminate| |].
          + destruct (y =? CR)%N; [discriminate|]. apply IH in H. lia.
          + destruct ((y =? CR)%N && (z =? LF)%N); [|apply IH in H; lia].
            injection H as _ ->. cbn. lia. }
      destruct (dec (ds_st d) w) as [o r] eqn:E. cbn in Hd. subst r. apply Hlt in E. lia.
  - destruct (complete_finished d Hs Hf) as (d' & -> & _).
    split; [|discriminate]. intros _. right. now apply dec_transfer.
  - unfold ds_complete. rewrite Hf. cbn. split; [tauto|discriminate].
Qed.
Print Assumptions C09_complete_panics_exactly.
(** [complete] works at most once, and [was_completed] tells whether it did. *)
Theorem C09_completed_once : forall d r d', ds_complete d = (r, d') -> r <> CompletePanic ->
  ds_was_completed d' = true /\ fst (ds_complete d') = CompletePanic.
Proof.
  intros [src st buf] r d' E H. unfold ds_complete in E. cbn [ds_st ds_buf ds_source] in E.
  destruct st; try (injection E as Er Ed; subst r; now destruct H).
  - destruct buf as [|b buf]; [injection E as Er Ed; subst d'; now split|].
    destruct (prep_prepend src (b :: buf)); injection E as Er Ed; subst r d'; [now split|now destruct H].
  - injection E as Er Ed. subst d'. now split.
Qed.
Print Assumptions C09_completed_once.
Theorem C09_not_completed_before : forall p out last d, polled p out last d -> ds_was_completed d = false.
Proof.
  intros p out last d H. apply polled_ok in H. unfold ds_was_completed.
  destruct H as [Hs [(Ha & _)|[(Hf & _)|(Hf & _)]]]; [|now rewrite Hf|now rewrite Hf].
  destruct (ds_st d); try reflexivity; exfalso; destruct Ha as [Ha|[Ha|Ha]]; discriminate.
Qed.
Print Assumptions C09_not_completed_before.
Example C09_example :
  polled (prep_new (src_of [Pend; Chunk (s2b "a")])) (s2b "a") (Some (DReady (Some (s2b "a"))))
    (snd (ds_polls 2 (ds_new (prep_new (src_of [Pend; Chunk (s2b "a")]))))).
Proof.
  set (p := prep_new (src_of [Pend; Chunk (s2b "a")])).
  apply (polled_step p [] (Some DPending) (snd (ds_poll (ds_new p))) (DReady (Some (s2b "a"))));
    [|discriminate|vm_compute; reflexivity].
  apply (polled_step p [] None (ds_new p) DPending); [constructor|discriminate|vm_compute; reflexivity].
Qed.

(** ** C10 *)
Theorem C10_next_crlf_line_exact : forall p : prependable,
  (forall a b, is_line a -> unread p = a ++ CRLF ++ b ->
     exists p', next_crlf_line p = (Line (a ++ CRLF), p') /\ unread p' = b)
  /\ (is_line (unread p) ->
     exists p', next_crlf_line p = (NoLine, p') /\ unread p' = unread p).
Proof.
  intros p. split; [|apply next_line_tail].
  intros a b Ha E.
  pose proof (next_crlf_line_ok p) as H. unfold line_post in H. cbn [app] in H.
  destruct (next_crlf_line p) as [[l'| | |] p']; try tauto.
  - destruct H as (a' & b' & E' & Ha' & -> & Hb & _). rewrite E in E'.
    apply first_crlf_unique in E'; auto. destruct E' as [<- <-]. eauto.
  - destruct H as [H _]. exfalso. apply H. rewrite E. now exists a, b.
Qed.
Print Assumptions C10_next_crlf_line_exact.
(** Every byte string falls under exactly one of the two cases. *)
Theorem C10_cases_exhaustive : forall l, is_line l \/ exists a b, is_line a /\ l = a ++ CRLF ++ b.
Proof. intros l. destruct (first_crlf l) as [H|(a & b & E & H)]; eauto. Qed.
Print Assumptions C10_cases_exhaustive.
Example C10_example : exists p',
  next_crlf_line (prep_new (src_of [Chunk [CR]; Pend; Chunk []; Chunk [CR]; Chunk (LF :: s2b "x")]))
  = (Line [CR; CR; LF], p') /\ unread p' = s2b "x".
Proof. eexists. vm_compute. split; reflexivity. Qed.
(** The bytes: *)
Example C10_crlf : CRLF = [13%N; 10%N] /\ DOT = 46%N /\ SP = 32%N.
Proof. repeat split. Qed.

(** ** C11 *)
Theorem C11_line_splitting_lossless : forall n p ls t,
  unread p = unlines ls ++ t -> Forall is_line ls -> is_line t ->
  exists p', next_lines n p = (map (fun l => Line (l ++ CRLF)) (firstn n ls)
                               ++ repeat NoLine (n - length ls), p')
  /\ unread p' = unlines (skipn n ls) ++ t.
Proof. exact next_lines_ok. Qed.
Print Assumptions C11_line_splitting_lossless.
Theorem C11_lines_exist_unique : forall l,
  (exists ls t, l = unlines ls ++ t /\ Forall is_line ls /\ is_line t)
  /\ (forall ls t ls' t', Forall is_line ls -> Forall is_line ls' -> is_line t -> is_line t' ->
      unlines ls ++ t = l -> unlines ls' ++ t' = l -> ls = ls' /\ t = t').
Proof.
  intros l. split; [apply lines_exist|]. intros ls t ls' t' H1 H2 H3 H4 E1 E2.
  apply lines_unique; auto. congruence.
Qed.
Print Assumptions C11_lines_exist_unique.
Example C11_example :
  fst (next_lines 3 (prep_new (src_of [Chunk [CR]; Chunk (LF :: s2b "x"); Chunk CRLF; Chunk (s2b "y")])))
  = [Line CRLF; Line (s2b "x" ++ CRLF); NoLine].
Proof. reflexivity. Qed.

(** ** C12 *)
Theorem C12_prepend_then_poll : forall p x p',
  prep_prepend p x = Some p' ->
  prep_poll p' = (Ready (Some x), p) /\ prep_next p' = (Some x, p)
  /\ (forall y, prep_prepend p' y = None).
Proof.
  intros [s [y|]] x p' H; [discriminate|]. injection H as <-. repeat split; reflexivity.
Qed.
Print Assumptions C12_prepend_then_poll.
Theorem C12_prepend_succeeds_exactly : forall p x,
  (prep_prepend p x = None <-> exists q y, prep_prepend q y = Some p).
Proof.
  intros [s [y|]] x; cbn; split; intros H; try discriminate; try reflexivity.
  - exists (Prep s None), y. reflexivity.
  - destruct H as ([s' [z|]] & y & H); discriminate.
Qed.
Print Assumptions C12_prepend_succeeds_exactly.
Theorem C12_slot_free_after_poll : forall p x,
  prep_prepend (snd (prep_poll p)) x <> None /\ prep_prepend (snd (prep_next p)) x <> None
  /\ (forall s, prep_prepend (prep_new s) x <> None).
Proof.
  intros [[evs en ov] [y|]] x; repeat split; try discriminate.
  - unfold prep_poll. cbn. destruct (src_poll _). discriminate.
  - unfold prep_next. cbn. destruct (src_next evs en ov). discriminate.
Qed.
Print Assumptions C12_slot_free_after_poll.
(** Items in order: the pushed-back one, then those of the inner stream. *)
Theorem C12_items_in_order : forall p,
  fst (prep_read_all p)
  = Some (match pr_prepended p with Some x => [x] | None => [] end ++ chunks (src_events (pr_stream p))).
Proof.
  assert (H : forall fuel evs en ov, length evs < fuel ->
     fst (prep_read_loop fuel (Prep (Src evs en ov) None)) = Some (chunks evs)).
  { induction fuel as [|fuel IH]; intros evs en ov Hf; [lia|].
    assert (Hn : forall evs en ov,
       match src_next evs en ov with
       | (Some b, s') => chunks evs = b :: chunks (src_events s') /\ length (src_events s') < length evs
       | (None, _) => chunks evs = []
       end).
    { clear. induction evs as [|[|b] evs IH]; intros en ov; cbn; [reflexivity| |auto].
      specialize (IH en ov). destruct (src_next evs en ov) as [[b|] s']; [|exact IH].
      destruct IH; split; auto. }
    specialize (Hn evs en ov). cbn [prep_read_loop]. unfold prep_next. cbn [pr_prepended pr_stream].
    cbn [src_events src_ended src_over].
    destruct (src_next evs en ov) as [[b|] [evs' en' ov']].
    - destruct Hn as [-> Hl]. cbn in Hl. specialize (IH evs' en' ov' ltac:(lia)).
      destruct (prep_read_loop fuel _) as [r p'']. cbn in *. now rewrite IH.
    - now rewrite Hn. }
  intros [[evs en ov] [x|]]; unfold prep_read_all; cbn [pr_prepended pr_stream src_events].
  - specialize (H (S (length evs)) evs en ov ltac:(lia)).
    replace (length evs + 2) with (S (S (length evs))) by lia.
    remember (S (length evs)) as n eqn:En. cbn [prep_read_loop]. unfold prep_next. cbn [pr_prepended pr_stream].
    destruct (prep_read_loop n (Prep (Src evs en ov) None)) as [r p'']. cbn in *. now rewrite H.
  - apply H. lia.
Qed.
Print Assumptions C12_items_in_order.
Example C12_example :
  prep_prepend (prep_new (src_of [Chunk (s2b "b")])) (s2b "a") =
    Some (Prep (src_of [Chunk (s2b "b")]) (Some (s2b "a"))).
Proof. reflexivity. Qed.
