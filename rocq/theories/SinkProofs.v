(** Proofs about [DataSink]. *)
From Verif Require Import Bytes Stream SpecData DataProofs DataLines.

(** Byte automaton of the sink. *)
Fixpoint enc (st : sink_state) (l : bytes) : bytes * sink_state :=
  match l with
  | [] => ([], st)
  | c :: l' =>
      if (c =? CR)%N then let '(o, s) := enc SkCrPassed l' in (c :: o, s)
      else match st with
           | SkCrPassed =>
               if (c =? LF)%N then let '(o, s) := enc SkCrLfPassed l' in (c :: o, s)
               else let '(o, s) := enc SkRunning l' in (c :: o, s)
           | SkCrLfPassed =>
               if (c =? DOT)%N then let '(o, s) := enc SkRunning l' in (c :: c :: o, s)
               else let '(o, s) := enc SkRunning l' in (c :: o, s)
           | SkRunning => let '(o, s) := enc SkRunning l' in (c :: o, s)
           end
  end.

Lemma enc_app st a b :
  enc st (a ++ b) = (fst (enc st a) ++ fst (enc (snd (enc st a)) b), snd (enc (snd (enc st a)) b)).
Proof.
  revert st. induction a as [|c a IH]; intros st; cbn [app enc].
  - cbn. destruct (enc st b); reflexivity.
  - destruct (c =? CR)%N; [|destruct st; [|destruct (c =? LF)%N|destruct (c =? DOT)%N]];
      rewrite IH; match goal with |- context [enc ?s a] => destruct (enc s a) end; reflexivity.
Qed.

(** The scan finds the first byte to double. *)
Lemma sink_scan_ok : forall item st pos,
  match sink_scan st pos item with
  | (st', None) => enc st item = (item, st')
  | (st', Some k) => exists u v, item = u ++ DOT :: v /\ k = pos + length u /\ st' = SkRunning
       /\ enc st item = (u ++ DOT :: fst (enc SkRunning (DOT :: v)), snd (enc SkRunning (DOT :: v)))
  end.
Proof.
  induction item as [|c item IH]; intros st pos; cbn [sink_scan enc]; [reflexivity|].
  assert (H : forall s,
    match sink_scan s (S pos) item with
    | (st', None) => (let '(o, s') := enc s item in (c :: o, s')) = (c :: item, st')
    | (st', Some k) => exists u v, c :: item = u ++ DOT :: v /\ k = pos + length u /\ st' = SkRunning
         /\ (let '(o, s') := enc s item in (c :: o, s'))
            = (u ++ DOT :: fst (enc SkRunning (DOT :: v)), snd (enc SkRunning (DOT :: v)))
    end).
  { intros s. specialize (IH s (S pos)). destruct (sink_scan s (S pos) item) as [st' [k|]].
    - destruct IH as (u & v & E & Hk & Hst & He). exists (c :: u), v.
      rewrite E at 1. repeat split; auto; [cbn; lia|]. rewrite He. reflexivity.
    - rewrite IH. reflexivity. }
  destruct (c =? CR)%N; [apply H|]. destruct st; [apply H|destruct (c =? LF)%N; apply H|].
  destruct (N.eqb_spec c DOT) as [->|_]; [|apply H].
  exists [], item. split; [reflexivity|]. split; [cbn; lia|]. split; [reflexivity|].
  cbn [enc]. change (DOT =? CR)%N with false. cbv iota.
  destruct (enc SkRunning item); reflexivity.
Qed.

Definition prefix (a b : bytes) : Prop := exists c, b = a ++ c.
Lemma prefix_refl a : prefix a a.
Proof. exists []. now rewrite app_nil_r. Qed.
Lemma prefix_app a b : prefix a (a ++ b).
Proof. now exists b. Qed.
Lemma prefix_app2 c a b : prefix a b -> prefix (c ++ a) (c ++ b).
Proof. intros [d ->]. exists d. now rewrite app_assoc. Qed.

(** One [send]. *)
Definition send_post (s : sink) (item : bytes) (r : sink * sink_result) : Prop :=
  match r with
  | (s', SkOk) => concat (sk_sent s') = concat (sk_sent s) ++ fst (enc (sk_state s) item)
                  /\ sk_state s' = snd (enc (sk_state s) item)
  | (s', SkErr) => exists w, concat (sk_sent s') = concat (sk_sent s) ++ w
                             /\ prefix w (fst (enc (sk_state s) item))
  | (_, SkFuel) => False
  end.
Definition send_meas (s : sink) (item : bytes) : nat :=
  length item + match sk_state s with SkCrLfPassed => 1 | _ => 0 end.

Lemma sink_scan_pos st item k st' :
  st <> SkCrLfPassed -> sink_scan st 0 item = (st', Some k) -> 1 <= k.
Proof.
  intros Hst H. destruct item as [|c item]; [discriminate|]. cbn [sink_scan] in H.
  assert (forall s, sink_scan s 1 item = (st', Some k) -> 1 <= k) as HH.
  { intros s H'. pose proof (sink_scan_ok item s 1) as P. rewrite H' in P.
    destruct P as (u & v & _ & -> & _). lia. }
  destruct (c =? CR)%N; [eauto|]. destruct st; [eauto|destruct (c =? LF)%N; eauto|congruence].
Qed.

Lemma sink_send_loop_ok ok : forall fuel s item, send_meas s item < fuel ->
  send_post s item (sink_send_loop fuel ok s item).
Proof.
  induction fuel as [|fuel IH]; intros s item Hf; [lia|]. cbn [sink_send_loop].
  pose proof (sink_scan_ok item (sk_state s) 0) as Hs.
  destruct (sink_scan (sk_state s) 0 item) as [st [k|]] eqn:Es.
  - destruct Hs as (u & v & E & Hk & -> & He). cbn in Hk. subst k.
    assert (Hfn : firstn (length u + 1) item = u ++ [DOT]).
    { rewrite E. rewrite firstn_app. rewrite firstn_all2 by lia.
      replace (length u + 1 - length u) with 1 by lia. reflexivity. }
    assert (Hsk : skipn (length u) item = DOT :: v).
    { rewrite E. rewrite skipn_app. rewrite skipn_all2 by lia.
      now rewrite Nat.sub_diag. }
    rewrite Hfn, Hsk. unfold sink_put. destruct (ok (sk_sent s) (u ++ [DOT])).
    + set (s1 := Sink (sk_sent s ++ [u ++ [DOT]]) SkRunning).
      assert (Hm : send_meas s1 (DOT :: v) < fuel).
      { unfold send_meas in *. cbn [s1 sk_state]. rewrite E, app_length in Hf. cbn [length] in *.
        destruct (sk_state s) eqn:Est; try lia.
        - apply sink_scan_pos in Es; [lia|congruence].
        - apply sink_scan_pos in Es; [lia|congruence]. }
      specialize (IH s1 (DOT :: v) Hm).
      assert (Hc : concat (sk_sent s1) = concat (sk_sent s) ++ u ++ [DOT]).
      { cbn. rewrite concat_app. cbn. now rewrite app_nil_r. }
      change (sk_state s1) with SkRunning in IH.
      destruct (sink_send_loop fuel ok s1 (DOT :: v)) as [s' r]; unfold send_post in *.
      change (sk_state s1) with SkRunning in IH. rewrite Hc in IH.
      destruct r; [|destruct IH as (w & E1 & Hw)|exact IH]; rewrite He; cbn [fst snd].
      * destruct IH as [-> ->]. split; [now rewrite <- !app_assoc|reflexivity].
      * exists ((u ++ [DOT]) ++ w). rewrite E1. split; [now rewrite <- !app_assoc|].
        change (DOT :: fst (enc SkRunning (DOT :: v))) with ([DOT] ++ fst (enc SkRunning (DOT :: v))).
        rewrite app_assoc. now apply prefix_app2.
    + cbn. exists []. rewrite app_nil_r. split; [reflexivity|]. eexists; reflexivity.
    + cbn [send_post sk_sent]. exists (u ++ [DOT]). rewrite concat_app. cbn [concat]. rewrite app_nil_r, He.
      split; [reflexivity|]. cbn [fst]. exists (fst (enc SkRunning (DOT :: v))). now rewrite <- app_assoc.
  - unfold sink_put. destruct (ok (sk_sent s) item); cbn.
    + rewrite Hs. cbn. rewrite concat_app. cbn. rewrite app_nil_r. auto.
    + exists []. rewrite app_nil_r. split; [reflexivity|]. eexists; reflexivity.
    + exists item. rewrite concat_app. cbn. rewrite app_nil_r, Hs. split; [reflexivity|].
      exists []. cbn. now rewrite app_nil_r.
Qed.
Lemma sink_send_ok ok s item : send_post s item (sink_send ok s item).
Proof.
  apply sink_send_loop_ok. unfold send_meas. destruct (sk_state s); lia.
Qed.

Lemma sink_send_all_ok ok : forall items s, send_post s (concat items) (sink_send_all ok s items).
Proof.
  induction items as [|item items IH]; intros s.
  - cbn. rewrite app_nil_r. auto.
  - cbn [sink_send_all concat]. pose proof (sink_send_ok ok s item) as H.
    destruct (sink_send ok s item) as [s1 [| |]]; unfold send_post in *; rewrite ?enc_app;
      cbn [fst snd].
    + destruct H as [H1 H2]. specialize (IH s1).
      destruct (sink_send_all ok s1 items) as [s2 [| |]].
      * destruct IH as [-> ->]. rewrite H1, H2, <- app_assoc. auto.
      * destruct IH as (w & -> & Hw). rewrite H1, H2 in *.
        exists (fst (enc (sk_state s) item) ++ w). rewrite <- app_assoc. split; [reflexivity|].
        now apply prefix_app2.
      * exact IH.
    + destruct H as (w & -> & [c Hc]). exists w. split; [reflexivity|].
      rewrite Hc, <- app_assoc. apply prefix_app.
    + exact H.
Qed.

(** The bytes written by [end] in each state. *)
Definition fin (st : sink_state) : bytes :=
  match st with SkCrLfPassed => [DOT] ++ CRLF | _ => CRLF ++ [DOT] ++ CRLF end.
Lemma sink_end_ok ok s :
  match sink_end ok s with
  | (sent, SkOk) => concat sent = concat (sk_sent s) ++ fin (sk_state s)
  | (sent, SkErr) => sent = sk_sent s \/ concat sent = concat (sk_sent s) ++ fin (sk_state s)
  | (_, SkFuel) => False
  end.
Proof.
  unfold sink_end, sink_put. destruct (sk_state s); cbv iota zeta;
    match goal with |- context [ok ?a ?b] => destruct (ok a b) end; auto;
    rewrite concat_app; auto.
Qed.

(** ** Line by line *)
Definition scarry (st : sink_state) (l : bytes) : bytes :=
  match st with SkCrPassed => CR :: l | _ => l end.

Lemma enc_plain st c l : (c =? CR)%N = false ->
  match st with SkRunning => True | SkCrPassed => (c =? LF)%N = false | SkCrLfPassed => (c =? DOT)%N = false end ->
  enc st (c :: l) = (c :: fst (enc SkRunning l), snd (enc SkRunning l)).
Proof.
  intros H1 H2. cbn [enc]. rewrite H1. destruct st; rewrite ?H2; destruct (enc SkRunning l); reflexivity.
Qed.
Lemma enc_cr st l : enc st (CR :: l) = (CR :: fst (enc SkCrPassed l), snd (enc SkCrPassed l)).
Proof. cbn. destruct (enc SkCrPassed l); reflexivity. Qed.

Lemma enc_running_line : forall l st rest,
  (st = SkRunning \/ st = SkCrPassed) -> is_line (scarry st l) ->
  enc st (l ++ CRLF ++ rest) = (l ++ CRLF ++ fst (enc SkCrLfPassed rest), snd (enc SkCrLfPassed rest)).
Proof.
  induction l as [|a l IH]; intros st rest Hst Hl.
  - cbn. destruct (enc SkCrLfPassed rest). destruct st; reflexivity.
  - cbn [app]. destruct (N.eqb_spec a CR) as [->|Hcr].
    + rewrite enc_cr. rewrite IH; auto.
      destruct Hst as [-> | ->]; cbn [scarry] in *; [exact Hl|exact (is_line_cons _ _ Hl)].
    + rewrite enc_plain.
      * rewrite IH; auto. cbn [scarry].
        destruct Hst as [-> | ->]; cbn [scarry] in *;
          [exact (is_line_cons _ _ Hl)|exact (is_line_cons _ _ (is_line_cons _ _ Hl))].
      * now apply N.eqb_neq.
      * destruct Hst as [-> | ->]; auto. apply N.eqb_neq. intros ->. cbn [scarry] in Hl.
        rewrite is_line_cons_iff in Hl. destruct Hl as [Hl _]. apply Hl. eauto.
Qed.
Lemma enc_running_tail : forall l st,
  (st = SkRunning \/ st = SkCrPassed) -> is_line (scarry st l) ->
  fst (enc st l) = l /\ (snd (enc st l) = SkRunning \/ snd (enc st l) = SkCrPassed).
Proof.
  induction l as [|a l IH]; intros st Hst Hl.
  - cbn. auto.
  - destruct (N.eqb_spec a CR) as [->|Hcr].
    + rewrite enc_cr. cbn. destruct (IH SkCrPassed) as [-> H]; auto.
      destruct Hst as [-> | ->]; cbn [scarry] in *; [exact Hl|exact (is_line_cons _ _ Hl)].
    + rewrite enc_plain.
      * cbn. destruct (IH SkRunning) as [-> H]; auto. cbn [scarry].
        destruct Hst as [-> | ->]; cbn [scarry] in *;
          [exact (is_line_cons _ _ Hl)|exact (is_line_cons _ _ (is_line_cons _ _ Hl))].
      * now apply N.eqb_neq.
      * destruct Hst as [-> | ->]; auto. apply N.eqb_neq. intros ->. cbn [scarry] in Hl.
        rewrite is_line_cons_iff in Hl. destruct Hl as [Hl _]. apply Hl. eauto.
Qed.
Lemma enc_start l :
  enc SkCrLfPassed l =
  match l with
  | c :: _ => if (c =? DOT)%N then (DOT :: fst (enc SkRunning l), snd (enc SkRunning l))
              else enc SkRunning l
  | [] => ([], SkCrLfPassed)
  end.
Proof.
  destruct l as [|c l]; [reflexivity|]. destruct (N.eqb_spec c DOT) as [->|H].
  - cbn. destruct (enc SkRunning l); reflexivity.
  - apply N.eqb_neq in H. cbn. rewrite H. reflexivity.
Qed.
Lemma enc_line l rest : is_line l ->
  enc SkCrLfPassed (l ++ CRLF ++ rest)
  = (dot_stuff l ++ CRLF ++ fst (enc SkCrLfPassed rest), snd (enc SkCrLfPassed rest)).
Proof.
  intros Hl. rewrite enc_start.
  pose proof (enc_running_line l SkRunning rest (or_introl eq_refl) Hl) as H.
  destruct l as [|c l]; [exact H|].
  cbn [app dot_stuff] in *. rewrite H. cbn [fst snd].
  destruct (N.eqb_spec c DOT) as [->|Hd]; reflexivity.
Qed.
Lemma enc_tail t : is_line t -> fst (enc SkCrLfPassed t) = dot_stuff t
   /\ fin (snd (enc SkCrLfPassed t))
      = (match t with [] => [] | _ => CRLF end) ++ end_line ++ CRLF.
Proof.
  intros Ht. rewrite enc_start. destruct t as [|c t]; [auto|].
  destruct (enc_running_tail (c :: t) SkRunning (or_introl eq_refl) Ht) as [E H].
  cbn [dot_stuff]. destruct (N.eqb_spec c DOT) as [->|_]; cbn [fst snd]; rewrite E;
    (split; [reflexivity|]); destruct H as [-> | ->]; reflexivity.
Qed.
Lemma enc_lines ls rest : Forall is_line ls ->
  enc SkCrLfPassed (unlines ls ++ rest)
  = (unlines (map dot_stuff ls) ++ fst (enc SkCrLfPassed rest), snd (enc SkCrLfPassed rest)).
Proof.
  induction 1 as [|l ls Hl Hls IH].
  - cbn. destruct (enc SkCrLfPassed rest); reflexivity.
  - rewrite unlines_cons, <- !app_assoc, enc_line by assumption. rewrite IH. cbn [fst snd map].
    rewrite unlines_cons, <- !app_assoc. reflexivity.
Qed.
Lemma enc_message m :
  message_encoding m (fst (enc SkCrLfPassed m) ++ fin (snd (enc SkCrLfPassed m))).
Proof.
  destruct (lines_exist m) as (ls & t & -> & Hls & Ht). exists ls, t.
  repeat split; auto. rewrite enc_lines by assumption. cbn [fst snd].
  destruct (enc_tail t Ht) as [-> ->]. rewrite <- app_assoc. f_equal.
  destruct t; [reflexivity|]. now rewrite !app_assoc.
Qed.
Lemma message_encoding_unique m w w' : message_encoding m w -> message_encoding m w' -> w = w'.
Proof.
  intros (ls & t & Hls & Ht & -> & ->) (ls' & t' & Hls' & Ht' & E & ->).
  apply lines_unique in E; auto. destruct E as [-> ->]. reflexivity.
Qed.

(** ** What the receiver makes of it *)
Lemma dot_stuff_line l : is_line l -> is_line (dot_stuff l).
Proof.
  intros H. destruct l as [|c l]; [exact H|]. cbn. destruct (c =? DOT)%N; [|exact H].
  rewrite is_line_cons_iff. split; [intros [C _]; discriminate|exact H].
Qed.
Lemma dot_stuff_not_end l : dot_stuff l <> end_line.
Proof.
  destruct l as [|c l]; [discriminate|]. cbn. destruct (N.eqb_spec c DOT) as [->|H]; [discriminate|].
  unfold end_line. congruence.
Qed.
Lemma dot_unstuff_stuff l : dot_unstuff (dot_stuff l) = l.
Proof.
  destruct l as [|c l]; [reflexivity|]. cbn. destruct (c =? DOT)%N eqn:E; cbn; [reflexivity|].
  now rewrite E.
Qed.
Lemma dot_stuff_not_undecided l : ~ undecided (dot_stuff l).
Proof.
  destruct l as [|c l]; [intros [C|C]; discriminate|]. cbn.
  destruct (N.eqb_spec c DOT) as [->|H]; intros [C|C]; try discriminate; congruence.
Qed.
Lemma map_unstuff_stuff ls : map dot_unstuff (map dot_stuff ls) = ls.
Proof. rewrite map_map. erewrite map_ext; [apply map_id|]. apply dot_unstuff_stuff. Qed.
Lemma dec_enc m : dec CrLfPassed (fst (enc SkCrLfPassed m)) = (m, None).
Proof.
  destruct (lines_exist m) as (ls & t & -> & Hls & Ht). apply dec_interrupted.
  exists (map dot_stuff ls), (dot_stuff t). rewrite enc_lines by assumption. cbn [fst].
  destruct (enc_tail t Ht) as [-> _]. rewrite map_unstuff_stuff, dot_unstuff_stuff.
  split; [|split; [|split; [|split]]].
  - rewrite Forall_map. eapply Forall_impl; [|exact Hls]. apply dot_stuff_line.
  - rewrite Forall_map. apply Forall_forall. intros. apply dot_stuff_not_end.
  - now apply dot_stuff_line.
  - reflexivity.
  - right. split; [apply dot_stuff_not_undecided|reflexivity].
Qed.
(** What is received after [end]. *)
Definition norm (m : bytes) : bytes :=
  match snd (enc SkCrLfPassed m) with SkCrLfPassed => m | _ => m ++ CRLF end.

Lemma unlines_snoc ls l : unlines (ls ++ [l]) = unlines ls ++ l ++ CRLF.
Proof. rewrite unlines_app. unfold unlines at 2. cbn. now rewrite app_nil_r. Qed.

Lemma encoding_transfer m wire rest :
  message_encoding m wire -> exists out, normalised m out /\ transfer (wire ++ rest) out rest.
Proof.
  intros (ls & t & Hls & Ht & -> & ->). destruct t as [|c t].
  - exists (unlines ls). rewrite app_nil_r. split.
    + left. split; [|reflexivity].
      destruct ls as [|l0 ls0] using rev_ind; [left; reflexivity|].
      right. exists (unlines ls0 ++ l0). now rewrite unlines_snoc, app_assoc.
    + exists (map dot_stuff ls). rewrite map_unstuff_stuff.
      split; [|split; [|split]]; auto.
      * rewrite Forall_map. eapply Forall_impl; [|exact Hls]. apply dot_stuff_line.
      * rewrite Forall_map. apply Forall_forall. intros. apply dot_stuff_not_end.
      * now rewrite <- !app_assoc.
  - exists (unlines ls ++ (c :: t) ++ CRLF). split.
    + right. split; [|now rewrite <- app_assoc].
      intros [C|[m' C]]; [destruct (unlines ls); discriminate|].
      destruct (lines_exist m') as (ls1 & t1 & -> & Hls1 & Ht1).
      assert (E : unlines ls ++ (c :: t) = unlines (ls1 ++ [t1]) ++ []).
      { rewrite C, unlines_snoc, app_nil_r. now rewrite app_assoc. }
      apply lines_unique in E; auto using is_line_nil; [destruct E; discriminate|].
      apply Forall_app; auto.
    + exists (map dot_stuff (ls ++ [c :: t])). rewrite map_unstuff_stuff.
      split; [|split; [|split]].
      * rewrite Forall_map. apply Forall_forall. intros l Hin. apply dot_stuff_line.
        apply in_app_iff in Hin. destruct Hin as [Hin|[<-|[]]]; [|exact Ht].
        rewrite Forall_forall in Hls. now apply Hls.
      * rewrite Forall_map. apply Forall_forall. intros. apply dot_stuff_not_end.
      * rewrite map_app. cbn [map]. rewrite unlines_snoc. now rewrite <- !app_assoc.
      * now rewrite unlines_snoc.
Qed.

(** [dec] on prefixes. *)
Lemma dec_Some_app : forall w st o r x,
  dec st w = (o, Some r) -> dec st (w ++ x) = (o, Some (r ++ x)).
Proof.
  induction w as [|a w IH]; intros st o r x H; [discriminate|].
  assert (Hc : forall s, cons1 a (dec s w) = (o, Some r) -> cons1 a (dec s (w ++ x)) = (o, Some (r ++ x))).
  { intros s E. unfold cons1 in E. destruct (dec s w) as [o' r'] eqn:Ed. cbn in E.
    injection E as <- ->. rewrite (IH s o' r x Ed). reflexivity. }
  cbn [app dec] in *. destruct (a =? CR)%N; [now apply Hc|].
  destruct st; try (now apply Hc).
  - destruct (a =? LF)%N; now apply Hc.
  - destruct (a =? DOT)%N; [|now apply Hc].
    destruct w as [|y [|z w]]; [discriminate| |].
    + destruct (y =? CR)%N eqn:Ey; [discriminate|]. cbn [app].
      destruct x as [|z x].
      * rewrite app_nil_r. now rewrite Ey.
      * rewrite Ey. cbn [andb]. apply (IH Running _ _ (z :: x)) in H. exact H.
    + cbn [app]. destruct ((y =? CR)%N && (z =? LF)%N); [congruence|].
      apply (IH Running _ _ x) in H. exact H.
Qed.
Lemma dec_None_app : forall w st o x,
  dec st w = (o, None) -> exists o', fst (dec st (w ++ x)) = o ++ o'.
Proof.
  induction w as [|a w IH]; intros st o x H.
  - cbn in H. injection H as <-. eexists; reflexivity.
  - assert (Hc : forall s, cons1 a (dec s w) = (o, None) ->
       exists o', fst (cons1 a (dec s (w ++ x))) = o ++ o').
    { intros s E. unfold cons1 in E. destruct (dec s w) as [o1 r'] eqn:Ed. cbn in E.
      injection E as <- ->. destruct (IH s o1 x Ed) as [o' H']. exists o'. cbn. now rewrite H'. }
    cbn [app dec] in *. destruct (a =? CR)%N; [now apply Hc|].
    destruct st; try (now apply Hc).
    + destruct (a =? LF)%N; now apply Hc.
    + destruct (a =? DOT)%N; [|now apply Hc].
      destruct w as [|y [|z w]].
      * injection H as <-. eexists; reflexivity.
      * destruct (y =? CR)%N eqn:Ey; [injection H as <-; eexists; reflexivity|]. cbn [app].
        destruct x as [|z x].
        -- rewrite Ey. exists []. rewrite app_nil_r. now rewrite H.
        -- rewrite Ey. cbn [andb]. apply (IH Running _ (z :: x)) in H. exact H.
      * cbn [app]. destruct ((y =? CR)%N && (z =? LF)%N); [congruence|].
        apply (IH Running _ x) in H. exact H.
Qed.
Lemma dec_prefix_None w x o : dec CrLfPassed (w ++ x) = (o, None) ->
  exists o1 o2, dec CrLfPassed w = (o1, None) /\ o = o1 ++ o2.
Proof.
  intros H. destruct (dec CrLfPassed w) as [o1 [r|]] eqn:E.
  - apply (dec_Some_app _ _ _ _ x) in E. congruence.
  - destruct (dec_None_app _ _ _ x E) as [o2 H2]. rewrite H in H2. cbn in H2. eauto.
Qed.
Lemma dec_strict_prefix w x o rest : dec CrLfPassed (w ++ x) = (o, Some rest) ->
  length rest < length x ->
  exists o1 o2, dec CrLfPassed w = (o1, None) /\ o = o1 ++ o2.
Proof.
  intros H Hlen. destruct (dec CrLfPassed w) as [o1 [r|]] eqn:E.
  - apply (dec_Some_app _ _ _ _ x) in E. rewrite H in E. injection E as -> ->.
    rewrite app_length in Hlen. lia.
  - destruct (dec_None_app _ _ _ x E) as [o2 H2]. rewrite H in H2. cbn in H2. eauto.
Qed.
