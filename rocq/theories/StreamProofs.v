(** Proofs about [Prependable] and [next_crlf_line]; sequences of polls. *)
From Verif Require Import Bytes Stream SpecData DataProofs DataLines.

Definition slots (p : prependable) : nat :=
  length (src_events (pr_stream p)) + match pr_prepended p with Some _ => 1 | None => 0 end.
Definition after_end (s : src) : src :=
  Src [] true (src_over s + if src_ended s then 1 else 0).

Lemma src_next_ok : forall evs en ov,
  match src_next evs en ov with
  | (Some b, s') => concat (map ev_bytes evs) = b ++ src_bytes s' /\ length (src_events s') < length evs
       /\ src_ended s' = en /\ src_over s' = ov
  | (None, s') => concat (map ev_bytes evs) = [] /\ s' = Src [] true (ov + if en then 1 else 0)
  end.
Proof.
  induction evs as [|[|b] evs IH]; intros en ov; cbn [src_next].
  - split; [reflexivity|]. destruct en; f_equal; lia.
  - specialize (IH en ov). destruct (src_next evs en ov) as [[b|] s']; cbn; [|exact IH].
    decompose [and] IH. repeat split; auto.
  - cbn. repeat split; auto.
Qed.
Lemma prep_next_ok p :
  match prep_next p with
  | (Some b, p') => unread p = b ++ unread p' /\ pr_prepended p' = None /\ slots p' < slots p
       /\ src_ended (pr_stream p') = src_ended (pr_stream p)
       /\ src_over (pr_stream p') = src_over (pr_stream p)
  | (None, p') => unread p = [] /\ pr_prepended p = None /\ p' = Prep (after_end (pr_stream p)) None
  end.
Proof.
  destruct p as [[evs en ov] [b|]]; unfold prep_next; cbn [pr_prepended pr_stream].
  - unfold unread, slots; cbn. repeat split; auto. lia.
  - cbn [src_events src_ended src_over].
    pose proof (src_next_ok evs en ov) as H. destruct (src_next evs en ov) as [[b|] s'].
    + destruct H as (H1 & H2 & H3 & H4). unfold unread, slots, src_bytes; cbn.
      unfold src_bytes in *. repeat split; auto. lia.
    + destruct H as (H1 & ->). unfold unread, src_bytes; cbn. auto.
Qed.

Lemma prep_read_loop_ok : forall fuel p, slots p < fuel ->
  match prep_read_loop fuel p with
  | (Some items, p') => concat items = unread p /\ unread p' = []
  | (None, _) => False
  end.
Proof.
  induction fuel as [|fuel IH]; intros p Hf; [lia|]. cbn [prep_read_loop].
  pose proof (prep_next_ok p) as H. destruct (prep_next p) as [[b|] p'].
  - destruct H as (H1 & H2 & H3 & _). specialize (IH p' ltac:(lia)).
    destruct (prep_read_loop fuel p') as [[items|] p'']; [|exact IH]. cbn.
    destruct IH as [E1 E2]. rewrite E1, H1. auto.
  - destruct H as (H1 & H2 & ->). auto.
Qed.
Lemma prep_read_all_ok p :
  exists items p', prep_read_all p = (Some items, p') /\ concat items = unread p.
Proof.
  unfold prep_read_all.
  pose proof (prep_read_loop_ok (length (src_events (pr_stream p)) + 2) p) as H.
  destruct (prep_read_loop _ p) as [[items|] p'].
  - exists items, p'. split; [reflexivity|]. apply H. unfold slots. destruct (pr_prepended p); lia.
  - exfalso. apply H. unfold slots. destruct (pr_prepended p); lia.
Qed.

(** ** [find_sub] *)
Lemma prefixb_spec t i : prefixb t i = true <-> exists r, i = t ++ r.
Proof.
  revert i. induction t as [|a t IH]; intros i; cbn.
  - split; [eexists; reflexivity|auto].
  - destruct i as [|b i]; [split; [discriminate|intros [r C]; discriminate]|].
    rewrite andb_true_iff, N.eqb_eq, IH. split.
    + intros [-> [r ->]]. eauto.
    + intros [r E]. injection E as -> ->. eauto.
Qed.
Lemma find_sub_spec l :
  match find_sub CRLF l with
  | Some pos => exists a b, l = a ++ CRLF ++ b /\ length a = pos /\ is_line a
  | None => is_line l
  end.
Proof.
  induction l as [|c l IH]; [cbn; apply is_line_nil|].
  cbn [find_sub]. destruct (prefixb CRLF (c :: l)) eqn:E.
  - apply prefixb_spec in E. destruct E as [r ->]. exists [], r. repeat split; auto. apply is_line_nil.
  - assert (Hn : ~ (c = CR /\ exists l', l = LF :: l')).
    { intros [-> [l' ->]]. rewrite (proj2 (prefixb_spec CRLF (CR :: LF :: l'))) in E;
        [discriminate|]. exists l'. reflexivity. }
    destruct (find_sub CRLF l) as [pos|]; cbn [option_map].
    + destruct IH as (a & b & -> & Hp & Ha). exists (c :: a), b. repeat split; [cbn; lia|].
      apply is_line_cons_iff. split; [|exact Ha]. intros [-> [l' ->]]. apply Hn. split; eauto.
      cbn. eauto.
    + apply is_line_cons_iff. auto.
Qed.

Definition line_post (buf : bytes) (p : prependable) (r : line_result * prependable) : Prop :=
  match r with
  | (Line l, p') => exists a b, buf ++ unread p = a ++ CRLF ++ b /\ is_line a /\ l = a ++ CRLF
       /\ unread p' = b
       /\ src_ended (pr_stream p') = src_ended (pr_stream p)
       /\ src_over (pr_stream p') = src_over (pr_stream p)
  | (NoLine, p') => is_line (buf ++ unread p)
       /\ p' = Prep (after_end (pr_stream p)) (Some (buf ++ unread p))
  | _ => False
  end.

Lemma next_crlf_line_loop_ok : forall fuel p buf, slots p < fuel -> is_line buf ->
  line_post buf p (next_crlf_line_loop fuel p buf).
Proof.
  induction fuel as [|fuel IH]; intros p buf Hf Hbuf; [lia|]. cbn [next_crlf_line_loop].
  pose proof (prep_next_ok p) as H. destruct (prep_next p) as [[pkt|] p'].
  - destruct H as (H1 & H2 & H3 & H4 & H5).
    pose proof (find_sub_spec (buf ++ pkt)) as Hf'. cbv zeta.
    destruct (find_sub CRLF (buf ++ pkt)) as [pos|].
    + unfold prep_prepend. rewrite H2. cbn [line_post].
      destruct Hf' as (a & b & E & Hp & Ha). exists a, (b ++ unread p').
      rewrite H1, app_assoc, E. rewrite <- !app_assoc.
      repeat split; auto.
      * rewrite firstn_app. rewrite firstn_all2 by lia.
        replace (pos + 2 - length a) with 2 by lia. reflexivity.
      * unfold unread; cbn. rewrite H2. cbn. f_equal. rewrite skipn_app.
        rewrite skipn_all2 by lia. replace (pos + 2 - length a) with 2 by lia. reflexivity.
    + specialize (IH p' (buf ++ pkt) ltac:(lia) Hf'). unfold line_post in *.
      rewrite <- app_assoc, <- H1 in IH. unfold after_end in *. rewrite H4, H5 in IH. exact IH.
  - destruct H as (H1 & H2 & ->). unfold prep_prepend. cbn. rewrite H1, app_nil_r. auto.
Qed.
Lemma next_crlf_line_ok p : line_post [] p (next_crlf_line p).
Proof.
  apply next_crlf_line_loop_ok; [|apply is_line_nil].
  unfold slots. destruct (pr_prepended p); lia.
Qed.

Lemma next_line_cons p l ls t : unread p = unlines (l :: ls) ++ t -> is_line l ->
  exists p', next_crlf_line p = (Line (l ++ CRLF), p') /\ unread p' = unlines ls ++ t.
Proof.
  intros E Hl. pose proof (next_crlf_line_ok p) as H. unfold line_post in H. cbn [app] in H.
  rewrite unlines_cons, <- !app_assoc in E.
  destruct (next_crlf_line p) as [[l'| | |] p']; try tauto.
  - destruct H as (a & b & E' & Ha & -> & Hb & _). rewrite E in E'.
    apply first_crlf_unique in E'; auto. destruct E' as [<- <-]. eauto.
  - destruct H as [H _]. exfalso. apply H. rewrite E. now exists l, (unlines ls ++ t).
Qed.
Lemma next_line_tail p : is_line (unread p) ->
  exists p', next_crlf_line p = (NoLine, p') /\ unread p' = unread p.
Proof.
  intros Hl. pose proof (next_crlf_line_ok p) as H. unfold line_post in H. cbn [app] in H.
  destruct (next_crlf_line p) as [[l'| | |] p']; try tauto.
  - destruct H as (a & b & E' & Ha & -> & Hb & _). exfalso. apply Hl. rewrite E'. now exists a, b.
  - destruct H as [_ ->]. eexists. split; [reflexivity|]. unfold unread; cbn. now rewrite app_nil_r.
Qed.

Lemma next_lines_ok : forall n p ls t, unread p = unlines ls ++ t -> Forall is_line ls -> is_line t ->
  exists p', next_lines n p = (map (fun l => Line (l ++ CRLF)) (firstn n ls)
                               ++ repeat NoLine (n - length ls), p')
  /\ unread p' = unlines (skipn n ls) ++ t.
Proof.
  induction n as [|n IH]; intros p ls t E Hls Ht.
  - exists p. cbn. auto.
  - cbn [next_lines]. destruct ls as [|l ls].
    + cbn in E. destruct (next_line_tail p) as (p1 & -> & E1); [now rewrite E|].
      destruct (IH p1 [] t) as (p2 & -> & E2); auto; [now rewrite E1|].
      exists p2. rewrite firstn_nil, skipn_nil in *. cbn. rewrite Nat.sub_0_r. auto.
    + inversion Hls; subst. destruct (next_line_cons p l ls t) as (p1 & -> & E1); auto.
      destruct (IH p1 ls t) as (p2 & -> & E2); auto. exists p2. cbn. auto.
Qed.

(** ** Sequences of polls of a [DataStream] *)
Definition polled_inv (p : prependable) (out : bytes) (last : option ds_poll_result) (d : datastream)
  : Prop :=
  ds_slot d /\
  ((active (ds_st d) /\ last <> Some (DReady None)
    /\ dec CrLfPassed (unread p) = padd out (ds_dec d)
    /\ over d = src_over (pr_stream p) /\ ended d = src_ended (pr_stream p))
   \/ (ds_st d = Finished
       /\ dec CrLfPassed (unread p) = (out, Some (ds_buf d ++ unread (ds_source d)))
       /\ over d = src_over (pr_stream p) /\ ended d = src_ended (pr_stream p))
   \/ (ds_st d = EarlyFin /\ last = Some (DReady None) /\ dec CrLfPassed (unread p) = (out, None)
       /\ unread (ds_source d) = []
       /\ over d = src_over (pr_stream p) + (if src_ended (pr_stream p) then 1 else 0)
       /\ ended d = true)).

Lemma polled_ok p out last d : polled p out last d -> polled_inv p out last d.
Proof.
  induction 1 as [|out last d r d' H IH Hl Hp].
  - destruct (ds_new_active p) as [Ha Hs]. split; [exact Hs|]. left. split; [exact Ha|].
    split; [discriminate|]. rewrite ds_new_dec, padd_nil. auto.
  - destruct IH as [Hs [(Ha & _ & Hd & Ho & He)|[(Hf & Hd & Ho & He)|(_ & C & _)]]]; [| |congruence].
    + pose proof (ds_poll_ok d Ha Hs) as P. rewrite Hp in P. unfold poll_post in P.
      destruct r as [[b|]| |].
      * destruct P as (Hb & Hs' & _ & Ho' & He' & [[Ha' Hd']|[Hf' Hd']]); split; auto.
        -- left. split; [exact Ha'|]. split; [congruence|].
           rewrite Hd, Hd', padd_app. repeat split; congruence.
        -- right; left. split; [exact Hf'|]. rewrite Hd, Hd'. repeat split; congruence.
      * rewrite app_nil_r.
        destruct P as (Hs' & _ & [(Hf' & Hd' & Ho' & He')|(Hf' & Hd' & Hu & _ & _ & Ho' & He' & _)]);
          split; auto.
        -- right; left. split; [exact Hf'|]. rewrite Hd, Hd'. unfold padd; cbn.
           rewrite app_nil_r. repeat split; congruence.
        -- right; right. split; [exact Hf'|]. split; [reflexivity|].
           rewrite Hd, Hd'. unfold padd; cbn. rewrite app_nil_r.
           repeat split; auto. rewrite Ho', Ho, He. reflexivity.
      * rewrite app_nil_r. destruct P as (Ha' & Hs' & _ & Hd' & Ho' & He'). split; auto.
        left. split; [exact Ha'|]. split; [congruence|]. rewrite Hd, Hd'. repeat split; congruence.
      * destruct P.
    + unfold ds_poll in Hp. rewrite Hf in Hp. injection Hp as <- <-. rewrite app_nil_r.
      split; [exact Hs|]. right; left. auto.
Qed.

Lemma complete_finished d : ds_slot d -> ds_st d = Finished ->
  exists d', ds_complete d = (CompleteOk, d') /\ unread (ds_source d') = ds_buf d ++ unread (ds_source d)
  /\ ds_st d' = Completed /\ over d' = over d /\ ended d' = ended d.
Proof.
  intros Hs Hf. unfold ds_complete. rewrite Hf. destruct (ds_buf d) as [|c b] eqn:E.
  - eexists. split; [reflexivity|]. cbn. auto.
  - unfold prep_prepend. destruct Hs as [C|C]; [congruence|]. rewrite C. eexists.
    split; [reflexivity|]. unfold unread; cbn. rewrite C. cbn. auto.
Qed.

(** Items are never empty, whatever the state. *)
Lemma ds_iter_nonempty d b d' : ds_iter d = (IReturn (Some b), d') -> b <> [].
Proof.
  unfold ds_iter. destruct (ds_buf d) as [|c buf].
  - cbn. discriminate.
  - destruct (find_split (ds_st d) (c :: buf)) as [st [|x|x|x]].
    + intros H. injection H as <- _. discriminate.
    + destruct (firstn x (c :: buf)) eqn:E; intros H; [discriminate|]. injection H as <- _. discriminate.
    + destruct (firstn x (c :: buf)) eqn:E; intros H; [discriminate|]. injection H as <- _. discriminate.
    + destruct x as [|x]; [discriminate|]. cbn. intros H. injection H as <- _. discriminate.
Qed.
Lemma ds_poll_loop_nonempty : forall fuel d b d',
  ds_poll_loop fuel d = (DReady (Some b), d') -> b <> [].
Proof.
  induction fuel as [|fuel IH]; intros d b d' H; [discriminate|]. cbn [ds_poll_loop] in H.
  destruct (ds_iter d) as [[x| |] d1] eqn:E.
  - injection H as -> ->. now apply ds_iter_nonempty in E.
  - eauto.
  - destruct (prep_poll (ds_source d1)) as [[|[b'|]] p1]; [discriminate|eauto|discriminate].
Qed.
Lemma ds_poll_nonempty d b d' : ds_poll d = (DReady (Some b), d') -> b <> [].
Proof.
  unfold ds_poll. destruct (ds_st d); try discriminate; apply ds_poll_loop_nonempty.
Qed.
Lemma ds_complete_Ok_finished d d' : ds_complete d = (CompleteOk, d') -> ds_st d = Finished.
Proof.
  unfold ds_complete. destruct (ds_st d); try discriminate. reflexivity.
Qed.
Lemma ds_polls_finished n d : ds_st d = Finished -> ds_polls n d = (repeat (DReady None) n, d).
Proof.
  intros H. induction n as [|n IH]; [reflexivity|]. cbn [ds_polls].
  unfold ds_poll. rewrite H. rewrite IH. reflexivity.
Qed.
