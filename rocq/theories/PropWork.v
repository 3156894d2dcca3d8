(** C72: the work of reading and writing. *)
From Verif Require Import Bytes Stream SpecData DataProofs DataLines StreamProofs Work SpecWork.

(** * Counting changes nothing *)
Lemma prefix_crlf a b tl : prefixb CRLF (a :: b :: tl) = ((a =? CR) && (b =? LF))%N.
Proof. cbn [prefixb CRLF]. rewrite (N.eqb_sym a), (N.eqb_sym b), Bool.andb_true_r. reflexivity. Qed.
Lemma position_cons a b tl : position_counted (a :: b :: tl) =
  if ((a =? CR) && (b =? LF))%N then (Some 0, 1) else let '(r, n) := position_counted (b :: tl) in (option_map S r, S n).
Proof. reflexivity. Qed.
Lemma position_erase buf : fst (position_counted buf) = find_sub CRLF buf.
Proof.
  induction buf as [|a [|b tl] IH]; [reflexivity| |].
  { cbn [position_counted fst find_sub prefixb CRLF]. now rewrite Bool.andb_false_r. }
  rewrite position_cons. change (find_sub CRLF (a :: b :: tl)) with (if prefixb CRLF (a :: b :: tl) then Some 0 else option_map S (find_sub CRLF (b :: tl))).
  rewrite prefix_crlf. destruct (_ && _)%bool; [reflexivity|]. rewrite <- IH. now destruct (position_counted (b :: tl)).
Qed.
Lemma line_erase fuel : forall p buf, fst (line_loop_counted fuel p buf) = next_crlf_line_loop fuel p buf.
Proof.
  induction fuel as [|fuel IH]; intros p buf; [reflexivity|]. cbn [line_loop_counted next_crlf_line_loop].
  destruct (prep_next p) as [[pkt|] p']; [|now destruct (prep_prepend p' buf)].
  cbv zeta. pose proof (position_erase (buf ++ pkt)) as E. destruct (position_counted (buf ++ pkt)) as [[pos|] n]; cbn [fst] in E; rewrite <- E.
  - now destruct (prep_prepend p' _).
  - rewrite <- IH. now destruct (line_loop_counted fuel p' (buf ++ pkt)).
Qed.
Lemma scan_erase buf : forall st idx, fst (scan_windows_counted st idx buf) = scan_windows st idx buf.
Proof.
  induction buf as [|a [|b [|c tl]] IH]; intros st idx; [reflexivity..|].
  assert (G : forall st, fst (let '(r, n) := scan_windows_counted st (S idx) (b :: c :: tl) in (r, S n)) = scan_windows st (S idx) (b :: c :: tl)).
  { intros s. rewrite <- IH. now destruct (scan_windows_counted s (S idx) (b :: c :: tl)). }
  change (scan_windows_counted st idx (a :: b :: c :: tl)) with
    (let go st := let '(r, n) := scan_windows_counted st (S idx) (b :: c :: tl) in (r, S n) in
      if (a =? CR)%N then go CrPassed
      else match st with
           | CrPassed => if (a =? LF)%N then go CrLfPassed else go Running
           | CrLfPassed =>
               if (a =? DOT)%N then
                 if (b =? CR)%N && (c =? LF)%N then (st, Eof idx, 1) else (st, Escape idx, 1)
               else go Running
           | _ => go Running
           end).
  change (scan_windows st idx (a :: b :: c :: tl)) with
    (let tl := b :: c :: tl in if (a =? CR)%N then scan_windows CrPassed (S idx) tl
      else match st with
           | CrPassed =>
               if (a =? LF)%N then scan_windows CrLfPassed (S idx) tl
               else scan_windows Running (S idx) tl
           | CrLfPassed =>
               if (a =? DOT)%N then
                 if (b =? CR)%N && (c =? LF)%N then (st, Eof idx) else (st, Escape idx)
               else scan_windows Running (S idx) tl
           | _ => scan_windows Running (S idx) tl
           end).
  cbv zeta. destruct (a =? CR)%N; [apply G|]. destruct st; try apply G.
  - destruct (a =? LF)%N; apply G.
  - destruct (a =? DOT)%N; [|apply G]. now destruct (_ && _)%bool.
Qed.
Lemma poll_erase fuel : forall d, fst (poll_loop_counted fuel d) = ds_poll_loop fuel d.
Proof.
  induction fuel as [|fuel IH]; intros d; [reflexivity|]. cbn [poll_loop_counted ds_poll_loop].
  destruct (ds_iter d) as [[x| |] d']; [reflexivity| |].
  - rewrite <- IH. now destruct (poll_loop_counted fuel d').
  - destruct (prep_poll (ds_source d')) as [[|[b|]] p]; try reflexivity. rewrite <- IH. now destruct (poll_loop_counted fuel _).
Qed.
Lemma sink_scan_erase item : forall st pos, fst (sink_scan_counted st pos item) = sink_scan st pos item.
Proof.
  induction item as [|c item IH]; intros st pos; [reflexivity|]. cbn [sink_scan_counted sink_scan]. cbv zeta.
  assert (G : forall st, fst (let '(r, n) := sink_scan_counted st (S pos) item in (r, S n)) = sink_scan st (S pos) item).
  { intros s. rewrite <- IH. now destruct (sink_scan_counted s (S pos) item). }
  destruct (c =? CR)%N; [apply G|]. destruct st; try apply G.
  - destruct (c =? LF)%N; apply G.
  - destruct (c =? DOT)%N; [reflexivity|apply G].
Qed.
Lemma send_erase fuel ok : forall s item, fst (sink_send_loop_counted fuel ok s item) = sink_send_loop fuel ok s item.
Proof.
  induction fuel as [|fuel IH]; intros s item; [reflexivity|]. cbn [sink_send_loop_counted sink_send_loop].
  pose proof (sink_scan_erase item (sk_state s) 0) as E. destruct (sink_scan_counted (sk_state s) 0 item) as [[st br] n]. cbn [fst] in E. rewrite <- E.
  destruct br as [pos|].
  - destruct (sink_put ok _ _) as [sent [|]]; [|reflexivity]. rewrite <- IH. now destruct (sink_send_loop_counted fuel ok _ _).
  - now destruct (sink_put ok _ _) as [sent [|]].
Qed.
(** The counted functions compute what the functions compute. *)
Theorem C72_counting : (forall p, fst (next_crlf_line_counted p) = next_crlf_line p)
  /\ (forall d, fst (ds_poll_counted d) = ds_poll d)
  /\ (forall ok s item, fst (sink_send_counted ok s item) = sink_send ok s item).
Proof.
  repeat split; intros.
  - apply line_erase.
  - unfold ds_poll_counted, ds_poll. destruct (ds_st d); try apply poll_erase. reflexivity.
  - apply send_erase.
Qed.
Print Assumptions C72_counting.

(** * Lines *)
Lemma position_work buf : match position_counted buf with
  | (Some pos, n) => n = pos + 1 /\ pos + 2 <= length buf
  | (None, n) => n = length buf - 1 end.
Proof.
  induction buf as [|a [|b tl] IH]; [reflexivity..|]. rewrite position_cons. destruct (_ && _)%bool; [cbn; lia|].
  destruct (position_counted (b :: tl)) as [[pos|] n]; cbn [option_map length] in *; lia.
Qed.
Lemma packets_app a b : packets (a ++ b) = packets a + packets b.
Proof. induction a as [|[|x] a IH]; cbn; lia. Qed.
Lemma src_next_taken evs e o r s : src_next evs e o = (r, s) ->
  exists taken, evs = taken ++ src_events s /\ packets taken = match r with Some _ => 1 | None => 0 end.
Proof.
  revert r s. induction evs as [|[|b] evs IH]; cbn [src_next]; intros r s H.
  - injection H as <- <-. now exists [].
  - apply IH in H. destruct H as (t & -> & H). now exists (Pend :: t).
  - injection H as <- <-. now exists [Chunk b].
Qed.
Lemma prep_next_taken p r p' : prep_next p = (r, p') ->
  exists taken, src_events (pr_stream p) = taken ++ src_events (pr_stream p')
  /\ packets taken = match r with Some _ => match pr_prepended p with Some _ => 0 | None => 1 end | None => 0 end
  /\ pr_prepended p' = None /\ (r = None -> pr_prepended p = None).
Proof.
  unfold prep_next. destruct (pr_prepended p) as [b|].
  - intros H. injection H as <- <-. exists []. now repeat split.
  - destruct (src_next _ _ _) as [r' s] eqn:E. intros H. injection H as <- <-. apply src_next_taken in E. destruct E as (t & E & P). exists t. now repeat split.
Qed.

Lemma crlf_after buf pkt pos : find_sub CRLF buf = None -> find_sub CRLF (buf ++ pkt) = Some pos -> length buf < pos + 2.
Proof.
  intros H1 H2. pose proof (find_sub_spec buf) as N. rewrite H1 in N. pose proof (find_sub_spec (buf ++ pkt)) as Y. rewrite H2 in Y.
  destruct Y as (a & b & E & <- & _). destruct (le_lt_dec (length a + 2) (length buf)) as [L|L]; [|exact L]. exfalso. apply N.
  apply (f_equal (firstn (length buf))) in E. rewrite firstn_app, Nat.sub_diag, firstn_all, firstn_O, app_nil_r in E.
  rewrite app_assoc, firstn_app, firstn_all2 in E by (rewrite app_length; cbn; lia). rewrite <- app_assoc in E.
  rewrite E. now exists a, (firstn (length buf - length (a ++ CRLF)) b).
Qed.
(** The bytes of the line; or, if there is none, all bytes that were collected. *)
Definition collected (r : line_result) (p' : prependable) : nat :=
  match r with
  | Line l => length l
  | _ => match pr_prepended p' with Some b => length b | None => 0 end
  end.
Lemma line_work fuel : forall p buf r p' n, line_loop_counted fuel p buf = (r, p', n) -> slots p < fuel -> find_sub CRLF buf = None ->
  exists taken, src_events (pr_stream p) = taken ++ src_events (pr_stream p')
  /\ length buf <= collected r p'
  /\ n <= (packets taken + match pr_prepended p with Some _ => 1 | None => 0 end) * collected r p'.
Proof.
  induction fuel as [|fuel IH]; intros p buf r p' n H F N; [lia|]. cbn [line_loop_counted] in H.
  pose proof (prep_next_ok p) as K. destruct (prep_next p) as [[pkt|] p1] eqn:E; apply prep_next_taken in E; destruct E as (t & E & P & P1 & _).
  - destruct K as (_ & _ & K & _). cbv zeta in H. pose proof (position_work (buf ++ pkt)) as W. pose proof (position_erase (buf ++ pkt)) as Z.
    destruct (position_counted (buf ++ pkt)) as [[pos|] m]; cbn [fst] in Z; symmetry in Z.
    + unfold prep_prepend in H. rewrite P1 in H. injection H as <- <- <-. exists t. cbn [pr_stream collected]. split; [exact E|].
      pose proof (crlf_after _ _ _ N Z) as L. destruct W as [-> W]. rewrite firstn_length_le by lia. split; [lia|].
      destruct (pr_prepended p); rewrite P; cbn; lia.
    + destruct (line_loop_counted fuel p1 (buf ++ pkt)) as [[r1 p2] m'] eqn:G. injection H as <- <- <-.
      destruct (IH _ _ _ _ _ G ltac:(lia) Z) as (t' & E' & L & W'). exists (t ++ t'). rewrite <- app_assoc, <- E'. split; [exact E|].
      rewrite app_length in L. split; [lia|]. rewrite packets_app, P. rewrite P1 in W'. rewrite app_length in W.
      destruct (pr_prepended p); nia.
  - unfold prep_prepend in H. rewrite P1 in H. injection H as <- <- <-. exists t. cbn [collected pr_prepended]. split; [exact E|]. split; lia.
Qed.
(** Reading one line compares at most its bytes once for every packet it needs, and once
    more.  [taken] is what the call takes from the stream. *)
Theorem C72_line : forall p r p' n, next_crlf_line_counted p = (r, p', n) ->
  exists taken, src_events (pr_stream p) = taken ++ src_events (pr_stream p')
  /\ n <= (packets taken + 1) * match r with
                                | Line l => length l
                                | _ => match pr_prepended p' with Some b => length b | None => 0 end
                                end.
Proof.
  intros p r p' n H. destruct (line_work _ _ _ _ _ _ H) as (t & E & _ & W); [unfold slots; destruct (pr_prepended p); lia|reflexivity|].
  exists t. split; [exact E|]. fold (collected r p'). destruct (pr_prepended p); [exact W|nia].
Qed.
Print Assumptions C72_line.
(** All lines of a connection together: if no line needs more than [k] packets, at most
    [k + 1] times their bytes; in particular never more than [packets + 1] times. *)
Theorem C72_lines : forall p ls p' w k, lines_read p ls p' w -> Forall (fun x => snd x <= k) ls ->
  w <= (k + 1) * length (concat (map fst ls)).
Proof.
  intros p ls p' w k H. induction H as [p|p l p1 n taken ls p' w H E _ IH]; intros B; [cbn; lia|].
  apply Forall_cons_iff in B. destruct B as [B1 B2]. cbn [snd] in B1. specialize (IH B2).
  destruct (C72_line _ _ _ _ H) as (t & E' & W). rewrite E in E'. apply app_inv_tail in E'. subst t.
  cbn [map fst concat]. rewrite app_length. nia.
Qed.
Print Assumptions C72_lines.
Theorem C72_lines_total : forall p ls p' w, lines_read p ls p' w ->
  w <= (packets (src_events (pr_stream p)) + 1) * length (concat (map fst ls)).
Proof.
  intros p ls p' w H. apply (C72_lines _ _ _ _ _ H). induction H as [p|p l p1 n taken ls p' w H E _ IH]; [constructor|].
  rewrite E, packets_app. constructor; [cbn; lia|]. eapply Forall_impl; [|exact IH]. cbn. intros x. lia.
Qed.
Print Assumptions C72_lines_total.
Lemma no_crlf buf : is_line buf -> position_counted buf = (None, length buf - 1).
Proof.
  intros H. pose proof (position_work buf) as W. pose proof (position_erase buf) as E. pose proof (find_sub_spec buf) as S.
  destruct (position_counted buf) as [[pos|] n]; cbn [fst] in E; rewrite <- E in S; [|now subst n].
  destruct S as (a & b & -> & _). exfalso. apply H. now exists a, b.
Qed.
Lemma crlf_here buf : is_line buf -> position_counted (buf ++ CRLF) = (Some (length buf), length buf + 1).
Proof.
  intros H. pose proof (position_work (buf ++ CRLF)) as W. pose proof (position_erase (buf ++ CRLF)) as E. pose proof (find_sub_spec (buf ++ CRLF)) as S.
  destruct (position_counted (buf ++ CRLF)) as [[pos|] n]; cbn [fst] in E; rewrite <- E in S.
  - destruct S as (a & b & K & <- & L). change CRLF with (CRLF ++ []) in K at 1. apply first_crlf_unique in K; [|assumption..]. destruct K as [<- _]. destruct W as [-> _]. reflexivity.
  - exfalso. apply S. exists buf, []. reflexivity.
Qed.
Lemma line_prefix a b : is_line (a ++ b) -> is_line a.
Proof. intros H (x & y & E). apply H. exists x, (y ++ b). rewrite E, <- !app_assoc. reflexivity. Qed.
Lemma line_cr a : is_line a -> is_line (a ++ [CR]).
Proof.
  intros H (x & y & E). destruct y as [|c y] using rev_ind.
  - rewrite app_nil_r in E. unfold CRLF in E. change [CR; LF] with ([CR] ++ [LF]) in E. rewrite app_assoc in E. apply app_inj_tail in E. destruct E as [_ E]. discriminate E.
  - rewrite !app_assoc in E. apply app_inj_tail in E. destruct E as [-> _]. apply H. exists x, y. now rewrite <- app_assoc.
Qed.
Lemma one_by_one l : forall buf fuel ended over, length l + 2 <= fuel -> is_line (buf ++ l) ->
  exists w, line_loop_counted fuel (Prep (Src (map (fun c => Chunk [c]) (l ++ CRLF)) ended over) None) buf
  = (Line (buf ++ l ++ CRLF), Prep (Src [] ended over) (Some []), w)
  /\ 2 * w = (length l + 2) * (2 * length buf + length l + 1).
Proof.
  induction l as [|c l IH]; intros buf fuel en ov F L.
  - rewrite app_nil_r in L. destruct fuel as [|[|fuel]]; [cbn in F; lia..|].
    cbn [line_loop_counted app map CRLF prep_next pr_prepended pr_stream src_events src_next src_ended src_over].
    rewrite no_crlf by now apply line_cr. cbn [pr_prepended pr_stream src_events src_next src_ended src_over].
    rewrite <- app_assoc. change ([CR] ++ [LF]) with CRLF. rewrite crlf_here by assumption. unfold prep_prepend. cbn [pr_prepended].
    rewrite firstn_all2 by (rewrite app_length; cbn; lia). rewrite skipn_all2 by (rewrite app_length; cbn; lia).
    eexists. split; [reflexivity|]. rewrite app_length. cbn. lia.
  - destruct fuel as [|fuel]; [cbn in F; lia|]. change (c :: l) with ([c] ++ l) in L. rewrite app_assoc in L.
    destruct (IH (buf ++ [c]) fuel en ov ltac:(cbn in F; lia) L) as (w & E & W).
    cbn [line_loop_counted app map prep_next pr_prepended pr_stream src_events src_next src_ended src_over].
    rewrite no_crlf by now apply line_prefix in L. rewrite E. rewrite <- app_assoc. eexists. split; [reflexivity|].
    rewrite app_length in *. cbn [length] in *. nia.
Qed.
(** This is attained: a client that sends a line byte by byte makes the server compare
    n (n - 1) / 2 windows for its n bytes. *)
Theorem C72_lines_quadratic : forall l, is_line l -> exists p' w,
  next_crlf_line_counted (prep_new (src_of (map (fun c => Chunk [c]) (l ++ CRLF)))) = (Line (l ++ CRLF), p', w)
  /\ 2 * w = length (l ++ CRLF) * (length (l ++ CRLF) - 1).
Proof.
  intros l L. destruct (one_by_one l [] (length (map (fun c => Chunk [c]) (l ++ CRLF)) + 2) false 0) as (w & E & W); [rewrite map_length, app_length; cbn; lia|exact L|].
  exists (Prep (Src [] false 0) (Some [])), w. split; [exact E|]. rewrite W, app_length. cbn. lia.
Qed.
Print Assumptions C72_lines_quadratic.

(** * Messages *)
Lemma scan_cons st idx a b c tl : scan_windows_counted st idx (a :: b :: c :: tl) =
    (let go st := let '(r, n) := scan_windows_counted st (S idx) (b :: c :: tl) in (r, S n) in
      if (a =? CR)%N then go CrPassed
      else match st with
           | CrPassed => if (a =? LF)%N then go CrLfPassed else go Running
           | CrLfPassed =>
               if (a =? DOT)%N then
                 if (b =? CR)%N && (c =? LF)%N then (st, Eof idx, 1) else (st, Escape idx, 1)
               else go Running
           | _ => go Running
           end).
Proof. reflexivity. Qed.
Lemma scan_work buf : forall st idx, match scan_windows_counted st idx buf with
  | (_, Nowhere, n) => n = length buf - 2
  | (_, Eof i, n) => i + 1 = idx + n /\ n + 2 <= length buf
  | (_, Escape i, n) => i + 1 = idx + n /\ n + 2 <= length buf
  | (_, Unknown _, _) => False
  end.
Proof.
  induction buf as [|a [|b [|c tl]] IH]; intros st idx; [reflexivity..|]. rewrite scan_cons. cbv zeta.
  assert (G : forall st, match (let '(r, n) := scan_windows_counted st (S idx) (b :: c :: tl) in (r, S n)) with
  | (_, Nowhere, n) => n = length (a :: b :: c :: tl) - 2
  | (_, Eof i, n) => i + 1 = idx + n /\ n + 2 <= length (a :: b :: c :: tl)
  | (_, Escape i, n) => i + 1 = idx + n /\ n + 2 <= length (a :: b :: c :: tl)
  | (_, Unknown _, _) => False
  end).
  { intros s. specialize (IH s (S idx)). destruct (scan_windows_counted s (S idx) (b :: c :: tl)) as [[s' sp] n]. destruct sp; cbn [length] in *; lia. }
  destruct (a =? CR)%N; [apply G|]. destruct st; try apply G.
  - destruct (a =? LF)%N; apply G.
  - destruct (a =? DOT)%N; [|apply G]. destruct (_ && _)%bool; cbn [length]; lia.
Qed.
Definition held (p : prependable) : nat :=
  match pr_prepended p with Some b => 1 + length b | None => 0 end
  + length (src_events (pr_stream p)) + event_bytes (src_events (pr_stream p)).
Lemma left_held d : left_over d = length (ds_buf d) + held (ds_source d).
Proof. unfold left_over, held. lia. Qed.
Lemma iter_work d : match ds_iter d with
  | (IReturn _, d') => iter_count d + length (ds_buf d') <= length (ds_buf d) + 1
  | (IContinue, d') => iter_count d + length (ds_buf d') <= length (ds_buf d)
  | (IRead, d') => iter_count d = 1 /\ ds_buf d' = ds_buf d
  end /\ ds_source (snd (ds_iter d)) = ds_source d.
Proof.
  unfold iter_count, ds_iter, find_split. pose proof (scan_work (ds_buf d) (ds_st d) 0) as W. rewrite <- scan_erase.
  destruct (scan_windows_counted (ds_st d) 0 (ds_buf d)) as [[st sp] n]. cbn [fst]. destruct sp as [|i|i|i]; [| | |tauto].
  - subst n. 
    assert (K : forall st' sp', (if 2 <=? length (ds_buf d) then scan_last2 st (length (ds_buf d)) (nth (length (ds_buf d) - 2) (ds_buf d) 0%N) (nth (length (ds_buf d) - 1) (ds_buf d) 0%N)
        else if length (ds_buf d) =? 1 then scan_last1 st (nth (length (ds_buf d) - 1) (ds_buf d) 0%N) else (st, Nowhere)) = (st', sp') ->
      match sp' with Nowhere => True | Eof _ => False | Escape i => i + 2 = length (ds_buf d) | Unknown i => i + 2 = length (ds_buf d) \/ i + 1 = length (ds_buf d) end).
    { intros st' sp'. destruct (Nat.leb_spec 2 (length (ds_buf d))) as [L|L].
      - unfold scan_last2. intros H. destruct st; repeat match type of H with (if ?b then _ else _) = _ => destruct b end; injection H as <- <-; lia || tauto.
      - destruct (Nat.eqb_spec (length (ds_buf d)) 1) as [L1|L1]; [|intros H; injection H as <- <-; exact I].
        unfold scan_last1. intros H. destruct st; repeat match type of H with (if ?b then _ else _) = _ => destruct b end; injection H as <- <-; lia || tauto. }
    cbv zeta. destruct (if 2 <=? length (ds_buf d) then _ else _) as [st' sp'] eqn:E. specialize (K _ _ eq_refl). destruct sp' as [|i|i|i]; [|tauto| |].
    + destruct (ds_buf d) as [|x l] eqn:B; cbn [ds_buf ds_source snd length]; split; try reflexivity; try lia. now split.
    + destruct (firstn i (ds_buf d)); cbn [ds_buf ds_source snd]; rewrite skipn_length; (split; [lia|reflexivity]).
    + destruct (Nat.ltb_spec 0 i) as [L|L]; cbn [ds_buf ds_source snd]; [rewrite skipn_length; split; [lia|reflexivity]|].
      split; [split; [lia|reflexivity]|reflexivity].
  - destruct W as [W1 W2]. destruct (firstn i (ds_buf d)); cbn [ds_buf ds_source snd]; rewrite skipn_length; (split; [lia|reflexivity]).
  - destruct W as [W1 W2]. destruct (firstn i (ds_buf d)); cbn [ds_buf ds_source snd]; rewrite skipn_length; (split; [lia|reflexivity]).
Qed.
Lemma prep_poll_held p r p' : prep_poll p = (r, p') ->
  match r with Ready (Some b) => held p = 1 + length b + held p' | Ready None => held p' = held p | Pending => held p = 1 + held p' end.
Proof.
  unfold prep_poll, held. destruct (pr_prepended p) as [b|].
  - intros H. injection H as <- <-. cbn. lia.
  - unfold src_poll. destruct (src_events (pr_stream p)) as [|[|b] evs]; intros H; injection H as <- <-; cbn; lia.
Qed.
Lemma poll_work fuel : forall d r d' n, poll_loop_counted fuel d = (r, d', n) -> n + left_over d' <= left_over d + 1.
Proof.
  induction fuel as [|fuel IH]; intros d r d' n H; [injection H as <- <- <-; lia|]. cbn [poll_loop_counted] in H. cbv zeta in H.
  pose proof (iter_work d) as W. destruct (ds_iter d) as [[x| |] d1]; cbn [snd] in W; destruct W as [W S].
  - injection H as <- <- <-. rewrite !left_held, S. lia.
  - destruct (poll_loop_counted fuel d1) as [[r1 d2] m] eqn:E. injection H as <- <- <-. apply IH in E. rewrite !left_held in *. rewrite S in E. lia.
  - destruct W as [W B]. destruct (prep_poll (ds_source d1)) as [pr p] eqn:P. apply prep_poll_held in P. rewrite S in P. destruct pr as [|[b|]].
    + injection H as <- <- <-. rewrite !left_held. cbn [ds_buf ds_source]. rewrite B. lia.
    + destruct (poll_loop_counted fuel _) as [[r1 d2] m] eqn:E. injection H as <- <- <-. apply IH in E. rewrite !left_held in *. cbn [ds_buf ds_source] in E. rewrite app_length, B in E. lia.
    + injection H as <- <- <-. rewrite !left_held. cbn [ds_buf ds_source]. rewrite B. lia.
Qed.
(** A [DataStream] looks at most once at each byte it takes, once at each packet and
    [Pending] answer, and once more in each poll. *)
Theorem C72_data : forall d rs d' w, data_polled d rs d' w -> w + left_over d' <= left_over d + length rs.
Proof.
  induction 1 as [d|d r d1 n rs d' w H _ IH]; [cbn; lia|]. cbn [length].
  assert (n + left_over d1 <= left_over d + 1); [|lia].
  unfold ds_poll_counted in H. destruct (ds_st d); try (apply poll_work in H; exact H). injection H as <- <- <-. lia.
Qed.
Print Assumptions C72_data.
Corollary C72_message : forall evs rs d' w, data_polled (ds_new (prep_new (src_of evs))) rs d' w ->
  w <= event_bytes evs + length evs + length rs.
Proof. intros evs rs d' w H. apply C72_data in H. unfold left_over in H at 2. cbn in H. lia. Qed.
Print Assumptions C72_message.

(** * Sending *)
Lemma sink_scan_work item : forall st pos, match sink_scan_counted st pos item with
  | (_, None, n) => n = length item
  | (st', Some i, n) => i + 1 = pos + n /\ 1 <= n <= length item /\ st' = SkRunning /\ (st = SkRunning -> 2 <= n)
  end.
Proof.
  induction item as [|c item IH]; intros st pos; [reflexivity|]. cbn [sink_scan_counted]. cbv zeta.
  assert (G : forall s, match (let '(r, n) := sink_scan_counted s (S pos) item in (r, S n)) with
  | (_, None, n) => n = length (c :: item)
  | (st', Some i, n) => i + 1 = pos + n /\ 1 <= n <= length (c :: item) /\ st' = SkRunning /\ (st = SkRunning -> 2 <= n)
  end).
  { intros s. specialize (IH s (S pos)). destruct (sink_scan_counted s (S pos) item) as [[st' [i|]] n]; cbn [length] in *; [|lia].
    destruct IH as (H1 & H2 & H3 & _). repeat split; try lia; auto. }
  destruct (c =? CR)%N; [apply G|]. destruct st; try apply G.
  - destruct (c =? LF)%N; apply G.
  - destruct (c =? DOT)%N; [|apply G]. cbn [length]. repeat split; try lia; discriminate.
Qed.
Lemma put_ok ok sent b sent' : sink_put ok sent b = (sent', true) -> sent' = sent ++ [b].
Proof. unfold sink_put. destruct (ok sent b); intros H; injection H as <-; reflexivity || discriminate. Qed.
Lemma send_work fuel ok : forall s item s' r n, sink_send_loop_counted fuel ok s item = (s', r, n) ->
  (r = SkOk -> length (concat (sk_sent s')) = length (concat (sk_sent s)) + n)
  /\ (sk_state s = SkRunning -> n <= 2 * length item - 1) /\ n <= 2 * length item.
Proof.
  induction fuel as [|fuel IH]; intros s item s' r n H; [injection H as <- <- <-; repeat split; try discriminate; lia|].
  cbn [sink_send_loop_counted] in H. pose proof (sink_scan_work item (sk_state s) 0) as W.
  destruct (sink_scan_counted (sk_state s) 0 item) as [[st [pos|]] m].
  - destruct W as (W1 & W2 & -> & W4). destruct (sink_put ok (sk_sent s) (firstn (pos + 1) item)) as [sent [|]] eqn:P.
    + destruct (sink_send_loop_counted fuel ok _ _) as [[s1 r1] m'] eqn:E. injection H as <- <- <-.
      apply IH in E. destruct E as (E1 & E2 & E3). cbn [sk_sent sk_state] in *. specialize (E2 eq_refl). rewrite skipn_length in *.
      apply put_ok in P. subst sent. split; [|split; [intros R; specialize (W4 R); lia|lia]].
      intros K. rewrite (E1 K), concat_app, app_length. cbn [concat]. rewrite app_nil_r, firstn_length_le by lia. lia.
    + injection H as <- <- <-. split; [discriminate|]. split; [intros R; specialize (W4 R); lia|lia].
  - subst m. destruct (sink_put ok (sk_sent s) item) as [sent [|]] eqn:P; injection H as <- <- <-.
    + apply put_ok in P. subst sent. cbn [sk_sent]. split; [|lia]. intros _. rewrite concat_app, app_length. cbn [concat]. rewrite app_nil_r. reflexivity.
    + split; [discriminate|lia].
Qed.
(** [send] looks at no byte more than twice, whatever the sink answers; if it succeeds, it
    has looked at exactly as many bytes as it has written. *)
Theorem C72_send : forall ok s item s' r n, sink_send_counted ok s item = (s', r, n) ->
  n <= 2 * length item
  /\ (r = SkOk -> length (concat (sk_sent s')) = length (concat (sk_sent s)) + n).
Proof. intros ok s item s' r n H. apply send_work in H. destruct H as (H1 & _ & H3). now split. Qed.
Print Assumptions C72_send.
(** Three lines in two packets, the second line cut in the middle. *)
Definition ex_lines : prependable :=
  prep_new (src_of [Chunk (s2b "NOOP" ++ CRLF ++ s2b "QU"); Pend; Chunk (s2b "IT" ++ CRLF ++ s2b "RSET" ++ CRLF)]).
Example C72_lines_example : exists p', lines_read ex_lines [(s2b "NOOP" ++ CRLF, 1); (s2b "QUIT" ++ CRLF, 1); (s2b "RSET" ++ CRLF, 0)] p' 16.
Proof.
  eexists. change 16 with (5 + (6 + (5 + 0))).
  apply (lines_one ex_lines _ (Prep (Src [Pend; Chunk (s2b "IT" ++ CRLF ++ s2b "RSET" ++ CRLF)] false 0) (Some (s2b "QU"))) 5
    [Chunk (s2b "NOOP" ++ CRLF ++ s2b "QU")]); [reflexivity..|].
  apply (lines_one _ _ (Prep (Src [] false 0) (Some (s2b "RSET" ++ CRLF))) 6 [Pend; Chunk (s2b "IT" ++ CRLF ++ s2b "RSET" ++ CRLF)]); [reflexivity..|].
  apply (lines_one _ _ (Prep (Src [] false 0) (Some [])) 5 []); [reflexivity..|]. apply lines_none.
Qed.
(** A hundred lines of a hundred bytes: sent line by line, each is compared once;
    sent byte by byte, the first alone costs 4950 comparisons. *)
Example C72_quadratic_example :
  let l := repeat 97%N 98 in
  is_line l /\ snd (next_crlf_line_counted (prep_new (src_of [Chunk (l ++ CRLF)]))) = 99
  /\ snd (next_crlf_line_counted (prep_new (src_of (map (fun c => Chunk [c]) (l ++ CRLF))))) = 4950.
Proof.
  cbv zeta. split; [|split; vm_compute; reflexivity].
  pose proof (find_sub_spec (repeat 97%N 98)) as H. vm_compute in H |- *. exact H.
Qed.
(** A message with an escaped dot, in pieces. *)
Example C72_message_example : exists d' w,
  data_polled (ds_new (prep_new (src_of [Chunk (s2b "a" ++ CRLF ++ s2b "."); Pend; Chunk (s2b ".b" ++ CRLF); Chunk (s2b "." ++ CRLF ++ s2b "QUIT" ++ CRLF)])))
    [DReady (Some (s2b "a" ++ CRLF)); DPending; DReady (Some (s2b ".b" ++ CRLF)); DReady None] d' w /\ w = 12.
Proof.
  eexists _, _. split.
  - eapply data_polled_one; [vm_compute; reflexivity|]. eapply data_polled_one; [vm_compute; reflexivity|].
    eapply data_polled_one; [vm_compute; reflexivity|]. eapply data_polled_one; [vm_compute; reflexivity|]. apply data_polled_none.
  - reflexivity.
Qed.
Example C72_send_example : snd (sink_send_counted (fun _ _ => PutOk) sink_new (s2b ".a" ++ CRLF ++ s2b "..b")) = 9.
Proof. reflexivity. Qed.
