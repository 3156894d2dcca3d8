(** Proofs about [DataStream]. *)
From Verif Require Import Bytes Stream SpecData.

Definition active (st : ds_state) : Prop :=
  st = Running \/ st = CrPassed \/ st = CrLfPassed.

(** ** A byte automaton *)
Definition cons1 (a : N) (r : bytes * option bytes) : bytes * option bytes :=
  (a :: fst r, snd r).
Definition padd (u : bytes) (r : bytes * option bytes) : bytes * option bytes :=
  (u ++ fst r, snd r).

Fixpoint dec (st : ds_state) (l : bytes) : bytes * option bytes :=
  match l with
  | [] => ([], None)
  | a :: tl =>
      if (a =? CR)%N then cons1 a (dec CrPassed tl)
      else match st with
           | CrPassed =>
               if (a =? LF)%N then cons1 a (dec CrLfPassed tl) else cons1 a (dec Running tl)
           | CrLfPassed =>
               if (a =? DOT)%N then
                 match tl with
                 | [] => ([], None)
                 | [y] => if (y =? CR)%N then ([], None) else dec Running tl
                 | y :: z :: rest =>
                     if (y =? CR)%N && (z =? LF)%N then ([], Some rest) else dec Running tl
                 end
               else cons1 a (dec Running tl)
           | _ => cons1 a (dec Running tl)
           end
  end.

Lemma padd_nil r : padd [] r = r.
Proof. destruct r; reflexivity. Qed.
Lemma padd_cons a u r : padd (a :: u) r = cons1 a (padd u r).
Proof. reflexivity. Qed.
Lemma padd_app u v r : padd (u ++ v) r = padd u (padd v r).
Proof. unfold padd; simpl; now rewrite app_assoc. Qed.

Ltac eqb_subst :=
  repeat match goal with
  | H : (?x =? ?y)%N = true |- _ => apply N.eqb_eq in H; subst
  | H : (_ && _)%bool = true |- _ => apply andb_true_iff in H; destruct H
  end.

(** [split_ok st buf st' sp]: the split is right, whatever follows. *)
Definition split_ok (st : ds_state) (buf : bytes) (st' : ds_state) (sp : buf_split) : Prop :=
  match sp with
  | Nowhere => active st' /\ forall fut, dec st (buf ++ fut) = padd buf (dec st' fut)
  | Eof x => exists u v, buf = u ++ [DOT; CR; LF] ++ v /\ length u = x
               /\ forall fut, dec st (buf ++ fut) = (u, Some (v ++ fut))
  | Escape x => exists u v, buf = u ++ [DOT] ++ v /\ length u = x
               /\ forall fut, dec st (buf ++ fut) = padd u (dec Running (v ++ fut))
  | Unknown x => exists u v, buf = u ++ v /\ length u = x /\ st' = CrLfPassed
               /\ (v = [DOT] \/ v = [DOT; CR])
               /\ forall fut, dec st (buf ++ fut) = padd u (dec CrLfPassed (v ++ fut))
  end.

(** The whole [find_split] as one recursion on the buffer. *)
Fixpoint fs (st : ds_state) (idx : nat) (buf : bytes) : ds_state * buf_split :=
  match buf with
  | [] => (st, Nowhere)
  | [y] => match scan_last1 st y with
           | (st', Unknown _) => (st', Unknown idx)
           | r => r
           end
  | [x; y] => scan_last2 st (idx + 2) x y
  | a :: ((b :: c :: _) as tl) =>
      if (a =? CR)%N then fs CrPassed (S idx) tl
      else match st with
           | CrPassed =>
               if (a =? LF)%N then fs CrLfPassed (S idx) tl else fs Running (S idx) tl
           | CrLfPassed =>
               if (a =? DOT)%N then
                 if (b =? CR)%N && (c =? LF)%N then (st, Eof idx) else (st, Escape idx)
               else fs Running (S idx) tl
           | _ => fs Running (S idx) tl
           end
  end.

Lemma nth_app_len (pre buf : bytes) k :
  nth (length pre + k) (pre ++ buf) 0%N = nth k buf 0%N.
Proof. rewrite app_nth2 by lia. f_equal; lia. Qed.

Lemma fs_scan : forall buf st idx pre, length pre = idx -> 2 <= length buf ->
  fs st idx buf =
  let '(st1, split) := scan_windows st idx buf in
  match split with
  | Nowhere => let l := length (pre ++ buf) in
               scan_last2 st1 l (nth (l - 2) (pre ++ buf) 0%N) (nth (l - 1) (pre ++ buf) 0%N)
  | _ => (st1, split)
  end.
Proof.
  induction buf as [|a buf IH]; intros st idx pre Hpre Hlen; [simpl in Hlen; lia|].
  destruct buf as [|b buf]; [simpl in Hlen; lia|].
  destruct buf as [|c buf].
  - cbn [scan_windows fs]. rewrite app_length. cbn [length].
    replace (length pre + 2 - 2) with (length pre + 0) by lia.
    replace (length pre + 2 - 1) with (length pre + 1) by lia.
    rewrite !nth_app_len. subst idx. reflexivity.
  - assert (Hrec : forall st', fs st' (S idx) (b :: c :: buf) =
       let '(st1, split) := scan_windows st' (S idx) (b :: c :: buf) in
       match split with
       | Nowhere => let l := length (pre ++ a :: b :: c :: buf) in
          scan_last2 st1 l (nth (l - 2) (pre ++ a :: b :: c :: buf) 0%N)
                     (nth (l - 1) (pre ++ a :: b :: c :: buf) 0%N)
       | _ => (st1, split)
       end).
    { intros st'. rewrite (IH st' (S idx) (pre ++ [a])).
      - rewrite <- app_assoc. reflexivity.
      - rewrite app_length; simpl; lia.
      - simpl; lia. }
    remember (b :: c :: buf) as tl eqn:Etl.
    assert (Hfs : fs st idx (a :: tl) =
      if (a =? CR)%N then fs CrPassed (S idx) tl
      else match st with
           | CrPassed =>
               if (a =? LF)%N then fs CrLfPassed (S idx) tl else fs Running (S idx) tl
           | CrLfPassed =>
               if (a =? DOT)%N then
                 if (b =? CR)%N && (c =? LF)%N then (st, Eof idx) else (st, Escape idx)
               else fs Running (S idx) tl
           | _ => fs Running (S idx) tl
           end) by (subst tl; reflexivity).
    assert (Hsw : scan_windows st idx (a :: tl) =
      if (a =? CR)%N then scan_windows CrPassed (S idx) tl
      else match st with
           | CrPassed =>
               if (a =? LF)%N then scan_windows CrLfPassed (S idx) tl
               else scan_windows Running (S idx) tl
           | CrLfPassed =>
               if (a =? DOT)%N then
                 if (b =? CR)%N && (c =? LF)%N then (st, Eof idx) else (st, Escape idx)
               else scan_windows Running (S idx) tl
           | _ => scan_windows Running (S idx) tl
           end) by (subst tl; reflexivity).
    rewrite Hfs, Hsw.
    destruct (a =? CR)%N; [apply Hrec|].
    destruct st; try apply Hrec.
    + destruct (a =? LF)%N; apply Hrec.
    + destruct (a =? DOT)%N; [|apply Hrec].
      destruct ((b =? CR)%N && (c =? LF)%N); reflexivity.
Qed.

Lemma find_split_fs st buf : find_split st buf = fs st 0 buf.
Proof.
  unfold find_split.
  destruct buf as [|a [|b buf]].
  - reflexivity.
  - cbn. destruct st; cbn; repeat match goal with |- context [if ?c then _ else _] => destruct c end;
      reflexivity.
  - rewrite (fs_scan (a :: b :: buf) st 0 []) by (simpl; lia).
    destruct (scan_windows st 0 (a :: b :: buf)) as [st1 sp].
    destruct sp; try reflexivity.
Qed.

Definition shift_ok (idx : nat) (st : ds_state) (buf : bytes) (r : ds_state * buf_split) : Prop :=
  match snd r with
  | Nowhere => split_ok st buf (fst r) Nowhere
  | Eof x => idx <= x /\ split_ok st buf (fst r) (Eof (x - idx))
  | Escape x => idx <= x /\ split_ok st buf (fst r) (Escape (x - idx))
  | Unknown x => idx <= x /\ split_ok st buf (fst r) (Unknown (x - idx))
  end.

Lemma shift_cons idx a st st' tl r :
  (forall fut, dec st (a :: tl ++ fut) = cons1 a (dec st' (tl ++ fut))) ->
  shift_ok (S idx) st' tl r -> shift_ok idx st (a :: tl) r.
Proof.
  intros Hdec. destruct r as [rst [|x|x|x]]; unfold shift_ok; cbn [fst snd split_ok].
  - intros [Ha H]. split; [exact Ha|]. intros fut. cbn [app]. rewrite Hdec, H. reflexivity.
  - intros [Hx (u & v & E & L & H)]. split; [lia|].
    exists (a :: u), v. split; [cbn; now rewrite E|]. split; [simpl; lia|].
    intros fut. cbn [app]. rewrite Hdec, H. reflexivity.
  - intros [Hx (u & v & E & L & H)]. split; [lia|].
    exists (a :: u), v. split; [cbn; now rewrite E|]. split; [simpl; lia|].
    intros fut. cbn [app]. rewrite Hdec, H. reflexivity.
  - intros [Hx (u & v & E & L & Hst & Hv & H)]. split; [lia|].
    exists (a :: u), v. split; [cbn; now rewrite E|]. split; [simpl; lia|].
    split; [exact Hst|]. split; [exact Hv|].
    intros fut. cbn [app]. rewrite Hdec, H. reflexivity.
Qed.

Lemma dec_cons_cr st tl : dec st (CR :: tl) = cons1 CR (dec CrPassed tl).
Proof. reflexivity. Qed.
Lemma dec_cons_other st a tl :
  (a =? CR)%N = false ->
  match st with
  | CrPassed => (a =? LF)%N = false
  | CrLfPassed => (a =? DOT)%N = false
  | _ => True
  end ->
  dec st (a :: tl) = cons1 a (dec Running tl).
Proof.
  intros H1 H2. cbn [dec]. rewrite H1. destruct st; try reflexivity; now rewrite H2.
Qed.
Lemma dec_crlf tl : dec CrPassed (LF :: tl) = cons1 LF (dec CrLfPassed tl).
Proof. reflexivity. Qed.

Ltac act := unfold active; tauto.

Lemma scan_last1_ok st y idx : active st ->
  shift_ok idx st [y] (match scan_last1 st y with
                       | (st', Unknown _) => (st', Unknown idx)
                       | r => r
                       end).
Proof.
  intros Hst. unfold scan_last1.
  assert (Hnow : forall st', active st' ->
     (forall fut, dec st (y :: fut) = cons1 y (dec st' fut)) -> shift_ok idx st [y] (st', Nowhere)).
  { intros st' Ha H. split; [exact Ha|]. intros fut. apply H. }
  destruct Hst as [-> | [-> | ->]].
  - destruct (y =? CR)%N eqn:E1.
    + eqb_subst. apply Hnow; [act|reflexivity].
    + apply Hnow; [act|]. intros. now apply dec_cons_other.
  - destruct (y =? CR)%N eqn:E1; [eqb_subst; apply Hnow; [act|reflexivity]|].
    destruct (y =? LF)%N eqn:E2; [eqb_subst; apply Hnow; [act|reflexivity]|].
    apply Hnow; [act|]. intros. now apply dec_cons_other.
  - destruct (y =? DOT)%N eqn:E0.
    + eqb_subst. split; [lia|]. exists [], [DOT]. rewrite Nat.sub_diag.
      repeat split; auto. intros. now rewrite padd_nil.
    + destruct (y =? CR)%N eqn:E1; [eqb_subst; apply Hnow; [act|reflexivity]|].
      apply Hnow; [act|]. intros. now apply dec_cons_other.
Qed.

Lemma dec_dot_escape y fut : (y =? CR)%N = false ->
  dec CrLfPassed (DOT :: y :: fut) = dec Running (y :: fut).
Proof.
  intros H. cbn [dec]. change (DOT =? CR)%N with false. change (DOT =? DOT)%N with true.
  cbv iota. destruct fut as [|z fut]; now rewrite H.
Qed.

Lemma scan_last2_ok st x y idx : active st -> shift_ok idx st [x; y] (scan_last2 st (idx + 2) x y).
Proof.
  intros Hst. unfold scan_last2.
  assert (Hnow : forall st', active st' ->
     (forall fut, dec st (x :: y :: fut) = cons1 x (cons1 y (dec st' fut))) ->
     shift_ok idx st [x; y] (st', Nowhere)).
  { intros st' Ha H. split; [exact Ha|]. intros fut. apply H. }
  assert (Hgen : (match st with
                  | CrPassed => (x =? LF)%N = false \/ (y =? DOT)%N = false
                  | CrLfPassed => (x =? DOT)%N = false
                  | _ => True end) ->
    shift_ok idx st [x; y]
      (if (x =? CR)%N && (y =? LF)%N then (CrLfPassed, Nowhere)
       else if (y =? CR)%N then (CrPassed, Nowhere) else (Running, Nowhere))).
  { intros Hx.
    destruct (x =? CR)%N eqn:Ex; cbn [andb].
    - eqb_subst. destruct (y =? LF)%N eqn:Ey.
      + eqb_subst. apply Hnow; [act|]. intros. rewrite dec_cons_cr, dec_crlf. reflexivity.
      + destruct (y =? CR)%N eqn:Ey2.
        * eqb_subst. apply Hnow; [act|]. intros. now rewrite !dec_cons_cr.
        * apply Hnow; [act|]. intros. rewrite dec_cons_cr. now rewrite dec_cons_other.
    - destruct (y =? CR)%N eqn:Ey2.
      + eqb_subst. apply Hnow; [act|]. intros.
        destruct Hst as [-> | [-> | ->]]; [now rewrite dec_cons_other | |now rewrite dec_cons_other].
        destruct (x =? LF)%N eqn:E3; [eqb_subst; reflexivity|now rewrite dec_cons_other].
      + apply Hnow; [act|]. intros fut.
        destruct Hst as [-> | [-> | ->]]; [| |].
        * rewrite dec_cons_other by (auto; exact I). now rewrite dec_cons_other.
        * destruct (x =? LF)%N eqn:E3.
          -- eqb_subst. rewrite dec_crlf. destruct Hx as [Hx|Hx]; [discriminate|].
             now rewrite dec_cons_other.
          -- rewrite dec_cons_other by auto. now rewrite dec_cons_other.
        * rewrite dec_cons_other by auto. now rewrite dec_cons_other. }
  destruct Hst as [-> | [-> | ->]].
  - apply Hgen. exact I.
  - destruct (x =? LF)%N eqn:E1; cbn [andb].
    + destruct (y =? DOT)%N eqn:E2.
      * eqb_subst. split; [lia|]. exists [LF], [DOT].
        replace (idx + 2 - 1 - idx) with 1 by lia. repeat split; auto.
      * cbn [andb] in Hgen. apply Hgen. now right.
    + apply Hgen. now left.
  - destruct (x =? DOT)%N eqn:E1.
    + eqb_subst. destruct (y =? CR)%N eqn:E2.
      * eqb_subst. split; [lia|]. exists [], [DOT; CR].
        replace (idx + 2 - 2 - idx) with 0 by lia. repeat split; auto.
        intros. now rewrite padd_nil.
      * split; [lia|]. exists [], [y].
        replace (idx + 2 - 2 - idx) with 0 by lia. repeat split; auto.
        intros. rewrite padd_nil. now apply dec_dot_escape.
    + apply Hgen. exact eq_refl.
Qed.

Lemma fs_ok : forall buf st idx, active st -> shift_ok idx st buf (fs st idx buf).
Proof.
  induction buf as [|a buf IH]; intros st idx Hst.
  - split; [exact Hst|]. intros fut. now rewrite padd_nil.
  - destruct buf as [|b buf]; [now apply scan_last1_ok|].
    destruct buf as [|c buf]; [now apply scan_last2_ok|].
    remember (b :: c :: buf) as tl eqn:Etl.
    assert (Hfs : fs st idx (a :: tl) =
      if (a =? CR)%N then fs CrPassed (S idx) tl
      else match st with
           | CrPassed =>
               if (a =? LF)%N then fs CrLfPassed (S idx) tl else fs Running (S idx) tl
           | CrLfPassed =>
               if (a =? DOT)%N then
                 if (b =? CR)%N && (c =? LF)%N then (st, Eof idx) else (st, Escape idx)
               else fs Running (S idx) tl
           | _ => fs Running (S idx) tl
           end) by (subst tl; reflexivity).
    rewrite Hfs. clear Hfs.
    destruct (a =? CR)%N eqn:Ea.
    { eqb_subst. apply shift_cons with (st' := CrPassed); [reflexivity|]. apply IH; act. }
    destruct Hst as [-> | [-> | ->]].
    + apply shift_cons with (st' := Running); [|apply IH; act].
      intros. now rewrite dec_cons_other.
    + destruct (a =? LF)%N eqn:El.
      * eqb_subst. apply shift_cons with (st' := CrLfPassed); [reflexivity|]. apply IH; act.
      * apply shift_cons with (st' := Running); [|apply IH; act].
        intros. now rewrite dec_cons_other.
    + destruct (a =? DOT)%N eqn:Ed.
      * eqb_subst. destruct ((b =? CR)%N && (c =? LF)%N) eqn:Ebc.
        -- eqb_subst. split; [cbn; lia|]. cbn [fst snd split_ok]. rewrite Nat.sub_diag.
           exists [], buf. repeat split; auto.
        -- split; [cbn; lia|]. cbn [fst snd split_ok]. rewrite Nat.sub_diag.
           exists [], (b :: c :: buf). repeat split; auto. intros fut. rewrite padd_nil.
           cbn [app dec]. change (DOT =? CR)%N with false. change (DOT =? DOT)%N with true.
           cbv iota. rewrite Ebc. reflexivity.
      * apply shift_cons with (st' := Running); [|apply IH; act].
        intros. now rewrite dec_cons_other.
Qed.

Lemma find_split_ok st buf : active st ->
  split_ok st buf (fst (find_split st buf)) (snd (find_split st buf)).
Proof.
  intros Hst. rewrite find_split_fs. generalize (fs_ok buf st 0 Hst).
  unfold shift_ok. destruct (fs st 0 buf) as [st' [|x|x|x]]; cbn [fst snd]; intros H;
    [exact H| destruct H as [_ H]; rewrite Nat.sub_0_r in H; exact H ..].
Qed.

(** What is left to read from an active stream. *)
Definition ds_dec (d : datastream) : bytes * option bytes :=
  dec (ds_st d) (ds_buf d ++ unread (ds_source d)).
(** The push-back slot is free once something is buffered. *)
Definition ds_slot (d : datastream) : Prop :=
  ds_buf d = [] \/ pr_prepended (ds_source d) = None.

Definition over (d : datastream) : nat := src_over (pr_stream (ds_source d)).
Definition ended (d : datastream) : bool := src_ended (pr_stream (ds_source d)).

(** Outcome of one pass that returns or loops. *)
Lemma ds_iter_ok d : active (ds_st d) -> ds_slot d ->
  match ds_iter d with
  | (IReturn (Some b), d') =>
      ds_source d' = ds_source d /\ b <> [] /\ length (ds_buf d') + 1 <= length (ds_buf d)
      /\ ((active (ds_st d') /\ ds_dec d = padd b (ds_dec d'))
          \/ (ds_st d' = Finished
              /\ ds_dec d = (b, Some (ds_buf d' ++ unread (ds_source d')))))
  | (IReturn None, d') =>
      ds_source d' = ds_source d /\ length (ds_buf d') <= length (ds_buf d)
      /\ ds_buf d <> [] /\ ds_st d' = Finished
      /\ ds_dec d = ([], Some (ds_buf d' ++ unread (ds_source d')))
  | (IContinue, d') =>
      ds_source d' = ds_source d /\ active (ds_st d') /\ ds_dec d = ds_dec d'
      /\ length (ds_buf d') + 1 <= length (ds_buf d) /\ ds_buf d <> []
  | (IRead, d') =>
      ds_source d' = ds_source d /\ active (ds_st d') /\ ds_dec d = ds_dec d'
      /\ ds_buf d' = ds_buf d
      /\ (ds_buf d = [] \/ (ds_st d' = CrLfPassed /\ (ds_buf d = [DOT] \/ ds_buf d = [DOT; CR])))
  end.
Proof.
  intros Hst Hslot. unfold ds_iter.
  generalize (find_split_ok (ds_st d) (ds_buf d) Hst).
  destruct (find_split (ds_st d) (ds_buf d)) as [st' sp]; cbn [fst snd].
  destruct sp as [|x|x|x]; cbn [split_ok].
  - intros [Ha H]. destruct (ds_buf d) as [|c buf] eqn:Eb.
    + cbn. repeat split; auto. unfold ds_dec. rewrite Eb. cbn.
      specialize (H (unread (ds_source d))). now rewrite padd_nil in H.
    + cbn [ds_source ds_buf ds_st]. repeat split; try discriminate; [cbn; lia|].
      left. split; [exact Ha|]. unfold ds_dec. rewrite Eb. apply H.
  - intros (u & v & E & L & H).
    assert (Hf : firstn x (ds_buf d) = u).
    { rewrite E, firstn_app, L, Nat.sub_diag. cbn. rewrite app_nil_r. subst x. apply firstn_all. }
    assert (Hs : skipn (x + 3) (ds_buf d) = v).
    { rewrite E. rewrite skipn_app. rewrite skipn_all2 by lia. rewrite <- L.
      replace (length u + 3 - length u) with 3 by lia. reflexivity. }
    rewrite Hf, Hs.
    assert (Hl : length (ds_buf d) = length u + 3 + length v).
    { rewrite E. rewrite !app_length. cbn. lia. }
    destruct u as [|c u]; cbn [ds_source ds_buf ds_st].
    + repeat split; try lia; [intros C; rewrite C in Hl; cbn in Hl; lia|]. apply H.
    + repeat split; try discriminate; [lia|]. right. split; [reflexivity|]. apply H.
  - intros (u & v & E & L & H).
    assert (Hf : firstn x (ds_buf d) = u).
    { rewrite E, firstn_app, L, Nat.sub_diag. cbn. rewrite app_nil_r. subst x. apply firstn_all. }
    assert (Hs : skipn (x + 1) (ds_buf d) = v).
    { rewrite E. rewrite skipn_app. rewrite skipn_all2 by lia. rewrite <- L.
      replace (length u + 1 - length u) with 1 by lia. reflexivity. }
    rewrite Hf, Hs.
    assert (Hl : length (ds_buf d) = length u + 1 + length v).
    { rewrite E. rewrite !app_length. cbn. lia. }
    destruct u as [|c u]; cbn [ds_source ds_buf ds_st].
    + cbn in Hl. repeat split; try lia; try act.
      * unfold ds_dec. cbn [ds_source ds_buf ds_st]. rewrite H. now rewrite padd_nil.
      * intros C; rewrite C in Hl; cbn in Hl; lia.
    + repeat split; try discriminate; [lia|]. left. split; [act|]. apply H.
  - intros (u & v & E & L & Est & Hv & H).
    destruct (Nat.ltb_spec 0 x) as [Hx|Hx].
    + assert (Hf : firstn x (ds_buf d) = u).
      { rewrite E, firstn_app, L, Nat.sub_diag. cbn. rewrite app_nil_r. subst x. apply firstn_all. }
      assert (Hs : skipn x (ds_buf d) = v).
      { rewrite E. rewrite skipn_app. rewrite skipn_all2 by lia. rewrite <- L.
        now rewrite Nat.sub_diag. }
      rewrite Hf, Hs. cbn [ds_source ds_buf ds_st].
      assert (u <> []) by (intros ->; cbn in L; lia).
      repeat split; auto.
      * rewrite E, app_length. lia.
      * left. split; [subst st'; act|]. unfold ds_dec. cbn [ds_source ds_buf ds_st]. subst st'. apply H.
    + cbn [ds_source ds_buf ds_st]. assert (u = []) by (destruct u; [reflexivity|cbn in L; lia]).
      subst u. cbn in E. subst st'.
      repeat split; try act.
      * unfold ds_dec. cbn [ds_source ds_buf ds_st].
        specialize (H (unread (ds_source d))). rewrite padd_nil in H.
        rewrite H. now rewrite E.
      * right. split; [reflexivity|]. rewrite E. exact Hv.
Qed.

Lemma prep_poll_ok p :
  match prep_poll p with
  | (Pending, p') => unread p' = unread p /\ pr_prepended p' = None
       /\ prep_size p' + 1 = prep_size p
       /\ src_over (pr_stream p') = src_over (pr_stream p)
       /\ src_ended (pr_stream p') = src_ended (pr_stream p)
  | (Ready (Some b), p') => unread p = b ++ unread p' /\ pr_prepended p' = None
       /\ prep_size p = 1 + length b + prep_size p'
       /\ src_over (pr_stream p') = src_over (pr_stream p)
       /\ src_ended (pr_stream p') = src_ended (pr_stream p)
  | (Ready None, p') => unread p = [] /\ unread p' = [] /\ pr_prepended p' = None
       /\ prep_size p = prep_size p' /\ src_events (pr_stream p') = []
       /\ src_over (pr_stream p') =
          src_over (pr_stream p) + (if src_ended (pr_stream p) then 1 else 0)
       /\ src_ended (pr_stream p') = true
  end.
Proof.
  destruct p as [[evs en ov] [b|]]; unfold prep_poll, src_poll; cbn.
  - unfold unread, prep_size; cbn. auto.
  - destruct evs as [|[|b] evs]; cbn; unfold unread, prep_size, src_bytes, src_size; cbn;
      repeat split; auto; try lia; destruct en; lia.
Qed.

Definition poll_post (d : datastream) (r : ds_poll_result * datastream) : Prop :=
  match r with
  | (DReady (Some b), d') =>
      b <> [] /\ ds_slot d' /\ ds_size d' + 1 <= ds_size d
      /\ over d' = over d /\ ended d' = ended d
      /\ ((active (ds_st d') /\ ds_dec d = padd b (ds_dec d'))
          \/ (ds_st d' = Finished
              /\ ds_dec d = (b, Some (ds_buf d' ++ unread (ds_source d')))))
  | (DReady None, d') =>
      ds_slot d' /\ ds_size d' <= ds_size d
      /\ ((ds_st d' = Finished /\ ds_dec d = ([], Some (ds_buf d' ++ unread (ds_source d')))
           /\ over d' = over d /\ ended d' = ended d)
          \/ (ds_st d' = EarlyFin /\ ds_dec d = ([], None) /\ unread (ds_source d') = []
              /\ pr_prepended (ds_source d') = None
              /\ src_events (pr_stream (ds_source d')) = []
              /\ over d' = over d + (if ended d then 1 else 0) /\ ended d' = true
              /\ (ds_buf d' = [] \/ ds_buf d' = [DOT] \/ ds_buf d' = [DOT; CR])))
  | (DPending, d') =>
      active (ds_st d') /\ ds_slot d' /\ ds_size d' + 1 <= ds_size d /\ ds_dec d = ds_dec d'
      /\ over d' = over d /\ ended d' = ended d
  | (DFuel, _) => False
  end.

Lemma poll_post_trans d d1 r :
  ds_dec d = ds_dec d1 -> ds_size d1 <= ds_size d -> over d1 = over d -> ended d1 = ended d ->
  poll_post d1 r -> poll_post d r.
Proof.
  intros H1 H2 H3 H4. destruct r as [[[b|]| |] d']; unfold poll_post; rewrite ?H1, ?H3, ?H4;
    intros H; decompose [and] H; repeat split; auto; lia.
Qed.

Lemma ds_poll_loop_ok : forall fuel d, active (ds_st d) -> ds_slot d -> ds_size d < fuel ->
  poll_post d (ds_poll_loop fuel d).
Proof.
  induction fuel as [|fuel IH]; intros d Hst Hslot Hf; [lia|].
  cbn [ds_poll_loop]. generalize (ds_iter_ok d Hst Hslot).
  destruct (ds_iter d) as [[x| |] d'].
  - destruct x as [b|].
    + intros (Es & Hb & Hl & H). cbn [poll_post].
      assert (ds_slot d').
      { right. rewrite Es. destruct Hslot as [C|C]; [rewrite C in Hl; cbn in Hl; lia|exact C]. }
      unfold ds_size, over, ended. rewrite Es. repeat split; auto. lia.
      rewrite Es in H. tauto.
    + intros (Es & Hl & Hne & Hfin & H). cbn [poll_post].
      assert (ds_slot d') by (right; rewrite Es; destruct Hslot as [C|C]; [contradiction|exact C]).
      unfold ds_size, over, ended. rewrite Es in H |- *.
      split; [assumption|]. split; [lia|]. left. auto.
  - intros (Es & Ha & Hd & Hl & Hne).
    assert (Hs' : ds_slot d') by (right; rewrite Es; destruct Hslot as [C|C]; [contradiction|exact C]).
    assert (Hsz : ds_size d' + 1 <= ds_size d) by (unfold ds_size; rewrite Es; lia).
    specialize (IH d' Ha Hs' ltac:(lia)).
    assert (Ho : over d' = over d /\ ended d' = ended d) by (unfold over, ended; now rewrite Es).
    destruct Ho as [Ho He]. apply (poll_post_trans d d'); auto. lia.
  - intros (Es & Ha & Hd & Hb & Hcase). rewrite Es.
    generalize (prep_poll_ok (ds_source d)).
    destruct (prep_poll (ds_source d)) as [[|[b|]] p].
    + intros (Hp & Hn & Hsz & Hov & Hen). cbn [poll_post ds_st ds_source].
      unfold ds_slot, ds_size, over, ended. cbn [ds_source ds_buf ds_st].
      repeat split; auto; [rewrite Hb; lia|].
      rewrite Hd. unfold ds_dec. cbn [ds_source ds_buf ds_st]. now rewrite Hp, Es.
    + intros (Hp & Hn & Hsz & Hov & Hen).
      assert (Hs' : ds_slot (DS p (ds_st d') (ds_buf d' ++ b))) by (right; exact Hn).
      assert (Hsz' : ds_size (DS p (ds_st d') (ds_buf d' ++ b)) + 1 <= ds_size d).
      { unfold ds_size. cbn [ds_source ds_buf]. rewrite app_length, Hb. lia. }
      specialize (IH (DS p (ds_st d') (ds_buf d' ++ b)) Ha Hs' ltac:(lia)).
      assert (Hd' : ds_dec d = ds_dec (DS p (ds_st d') (ds_buf d' ++ b))).
      { rewrite Hd. unfold ds_dec. cbn [ds_source ds_buf ds_st].
        rewrite Es, Hp. now rewrite app_assoc. }
      refine (poll_post_trans d _ _ Hd' _ _ _ IH); [lia | exact Hov | exact Hen].
    + intros (Hp & Hp' & Hn & Hsz & Hev & Hov & Hen). cbn [poll_post].
      unfold ds_slot, ds_size, over, ended. cbn [ds_source ds_buf ds_st].
      split; [right; exact Hn|]. split; [rewrite Hb; lia|]. right.
      split; [reflexivity|]. split.
      * rewrite Hd. unfold ds_dec. rewrite Es, Hp, Hb, app_nil_r.
        destruct Hcase as [-> | [-> [-> | ->]]]; reflexivity.
      * rewrite Hp'. rewrite Hb. repeat split; auto. tauto.
Qed.

Lemma ds_poll_ok d : active (ds_st d) -> ds_slot d -> poll_post d (ds_poll d).
Proof.
  intros Hst Hslot. unfold ds_poll.
  assert (ds_poll_loop (S (ds_size d)) d =
    match ds_st d with Finished => (DReady None, d) | _ => ds_poll_loop (S (ds_size d)) d end) as E.
  { destruct Hst as [-> | [-> | ->]]; reflexivity. }
  rewrite <- E. apply ds_poll_loop_ok; auto.
Qed.

Definition next_post (d : datastream) (r : option (option bytes) * datastream) : Prop :=
  match r with
  | (Some x, d') => poll_post d (DReady x, d')
  | (None, _) => False
  end.
Lemma ds_next_loop_ok : forall fuel d, active (ds_st d) -> ds_slot d -> ds_size d < fuel ->
  next_post d (ds_next_loop fuel d).
Proof.
  induction fuel as [|fuel IH]; intros d Hst Hslot Hf; [lia|].
  cbn [ds_next_loop]. generalize (ds_poll_ok d Hst Hslot).
  destruct (ds_poll d) as [[x| |] d']; cbn [poll_post].
  - exact (fun H => H).
  - intros (Ha & Hs & Hsz & Hd & Ho & He).
    specialize (IH d' Ha Hs ltac:(lia)). unfold next_post in *.
    destruct (ds_next_loop fuel d') as [[x|] d'']; [|exact IH].
    apply (poll_post_trans d d'); auto. lia.
  - tauto.
Qed.
Lemma ds_next_ok d : active (ds_st d) -> ds_slot d -> next_post d (ds_next d).
Proof. intros. apply ds_next_loop_ok; auto. Qed.

Lemma ds_next_finished d : ds_st d = Finished -> ds_next d = (Some None, d).
Proof. intros H. unfold ds_next. cbn [ds_next_loop]. unfold ds_poll. now rewrite H. Qed.

(** ** Reading to the end *)
Definition read_post (d : datastream) (r : option (list bytes) * datastream) : Prop :=
  match r with
  | (Some items, d') =>
      Forall (fun b => b <> []) items /\ ds_slot d'
      /\ ((ds_st d' = Finished
           /\ ds_dec d = (concat items, Some (ds_buf d' ++ unread (ds_source d')))
           /\ over d' = over d /\ ended d' = ended d)
          \/ (ds_st d' = EarlyFin /\ ds_dec d = (concat items, None)
              /\ unread (ds_source d') = [] /\ pr_prepended (ds_source d') = None
              /\ src_events (pr_stream (ds_source d')) = []
              /\ over d' = over d + (if ended d then 1 else 0) /\ ended d' = true
              /\ (ds_buf d' = [] \/ ds_buf d' = [DOT] \/ ds_buf d' = [DOT; CR])))
  | (None, _) => False
  end.

Lemma ds_read_loop_ok : forall fuel d, active (ds_st d) -> ds_slot d -> ds_size d < fuel ->
  read_post d (ds_read_loop fuel d).
Proof.
  induction fuel as [|fuel IH]; intros d Hst Hslot Hf; [lia|].
  cbn [ds_read_loop]. generalize (ds_next_ok d Hst Hslot).
  destruct (ds_next d) as [[[b|]|] d']; cbn [next_post poll_post].
  - intros (Hb & Hs & Hsz & Ho & He & [[Ha Hd]|[Hfin Hd]]).
    + specialize (IH d' Ha Hs ltac:(lia)). unfold read_post in *.
      destruct (ds_read_loop fuel d') as [[items|] d'']; [|exact IH].
      cbn [option_map]. destruct IH as (Hall & Hs' & IH). split; [constructor; auto|].
      split; [exact Hs'|]. rewrite Ho, He in IH.
      destruct IH as [(H1 & H2 & H3)|(H1 & H2 & H3)]; [left|right]; rewrite Hd, H2; cbn; auto.
    + destruct fuel as [|fuel]; [lia|]. cbn [ds_read_loop]. rewrite ds_next_finished by exact Hfin.
      cbn. split; [constructor; auto|]. split; [exact Hs|]. left. rewrite app_nil_r. auto.
  - intros (Hs & Hsz & H). cbn. split; [constructor|]. split; [exact Hs|]. exact H.
  - tauto.
Qed.
Lemma ds_read_all_ok d : active (ds_st d) -> ds_slot d -> read_post d (ds_read_all d).
Proof. intros. apply ds_read_loop_ok; auto. Qed.

Lemma ds_new_active p : active (ds_st (ds_new p)) /\ ds_slot (ds_new p).
Proof. split; [act|left; reflexivity]. Qed.
Lemma ds_new_dec p : ds_dec (ds_new p) = dec CrLfPassed (unread p).
Proof. reflexivity. Qed.

Definition session_post (p : prependable) (r : option (list bytes) * complete_result * datastream)
  : Prop :=
  match r with
  | (Some items, c, d') =>
      Forall (fun b => b <> []) items /\ ds_st d' = Completed
      /\ ((c = CompleteOk /\ dec CrLfPassed (unread p)
                             = (concat items, Some (unread (ds_source d')))
           /\ src_over (pr_stream (ds_source d')) = src_over (pr_stream p)
           /\ src_ended (pr_stream (ds_source d')) = src_ended (pr_stream p))
          \/ (c = CompleteErr /\ dec CrLfPassed (unread p) = (concat items, None)
              /\ unread (ds_source d') = [] /\ pr_prepended (ds_source d') = None
              /\ src_events (pr_stream (ds_source d')) = []
              /\ src_over (pr_stream (ds_source d'))
                 = src_over (pr_stream p) + (if src_ended (pr_stream p) then 1 else 0)
              /\ src_ended (pr_stream (ds_source d')) = true))
  | (None, _, _) => False
  end.

Lemma ds_session_ok p : session_post p (ds_session (ds_new p)).
Proof.
  unfold ds_session. destruct (ds_new_active p) as [Ha Hs].
  generalize (ds_read_all_ok (ds_new p) Ha Hs).
  destruct (ds_read_all (ds_new p)) as [[items|] d']; cbn [read_post]; [|tauto].
  intros (Hall & Hslot & [(Hst & Hd & Ho & He)|(Hst & Hd & Hp & Hn & Hev & Ho & He & _)]);
    unfold ds_complete; rewrite Hst.
  - rewrite ds_new_dec in Hd. unfold over, ended in *. cbn [ds_source ds_new] in *.
    destruct (ds_buf d') as [|c buf] eqn:Eb.
    + cbn. split; [exact Hall|]. split; [reflexivity|]. left. auto.
    + unfold prep_prepend. destruct Hslot as [C|C]; [congruence|]. rewrite C. cbn.
      split; [exact Hall|]. split; [reflexivity|]. left. rewrite Hd. repeat split; auto.
      unfold unread. rewrite C. reflexivity.
  - rewrite ds_new_dec in Hd. unfold over, ended in *. cbn [ds_source ds_new] in *.
    cbn. split; [exact Hall|]. split; [reflexivity|]. right. auto 10.
Qed.
