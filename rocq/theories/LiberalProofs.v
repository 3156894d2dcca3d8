(** What a liberal receiver makes of the encoding of a message. *)
From Verif Require Import Bytes SpecData DataLines SpecLiberal.

Lemma lf_lines_cons q Q : lf_lines (q :: Q) = q ++ LF :: lf_lines Q.
Proof. unfold lf_lines. cbn [map concat]. rewrite <- app_assoc. reflexivity. Qed.
Lemma lf_lines_app P Q : lf_lines (P ++ Q) = lf_lines P ++ lf_lines Q.
Proof. unfold lf_lines. rewrite map_app, concat_app. reflexivity. Qed.

(** The first line feed of a text. *)
Lemma first_lf a b c d : lf_line a -> lf_line c -> a ++ LF :: b = c ++ LF :: d -> a = c /\ b = d.
Proof.
  revert c; induction a as [| x a IH]; intros [| y c] Ha Hc E; cbn [app] in E.
  - injection E as E. auto.
  - injection E as E1 E2. subst y. exfalso; apply Hc; left; reflexivity.
  - injection E as E1 E2. subst x. exfalso; apply Ha; left; reflexivity.
  - injection E as E1 E2. subst y. destruct (IH c) as (-> & ->); auto; intros H; [apply Ha | apply Hc]; right; auto.
Qed.
Lemma lf_lines_head Q e c : Forall lf_line Q -> lf_line e -> lf_lines Q = e ++ LF :: c ->
  exists Q', Q = e :: Q' /\ c = lf_lines Q'.
Proof.
  intros F He E. destruct F as [| q Q Hq F].
  - destruct e; discriminate.
  - rewrite lf_lines_cons in E. apply first_lf in E as (-> & <-); eauto.
Qed.
(** Any line feed ends one of the lines. *)
Lemma lf_lines_at Q a t : Forall lf_line Q -> lf_lines Q = a ++ LF :: t ->
  exists X x Y, Q = X ++ x :: Y /\ a = lf_lines X ++ x /\ t = lf_lines Y.
Proof.
  intros F; revert a; induction F as [| q Q Hq F IH]; intros a E.
  - destruct a; discriminate.
  - rewrite lf_lines_cons in E.
    assert (D : (a = q /\ t = lf_lines Q) \/ exists a', a = q ++ LF :: a').
    { clear IH F. revert a E. induction q as [| x q IHq]; intros a E.
      - destruct a as [| y a]; cbn [app] in E; [injection E as E; left; auto |].
        injection E as E1 E2. subst y; right; exists a; auto.
      - destruct a as [| y a]; cbn [app] in E; injection E as E1 E2.
        + subst x. exfalso; apply Hq; left; reflexivity.
        + subst y. destruct (IHq (fun H => Hq (or_intror H)) a E2) as [(-> & ->) | (a' & ->)]; [left; auto |].
          right; exists a'; reflexivity. }
    destruct D as [(-> & ->) | (a' & ->)].
    + exists [], q, Q. auto.
    + rewrite <- app_assoc in E. cbn [app] in E. apply app_inv_head in E. injection E as E.
      destruct (IH _ E) as (X & x & Y & -> & -> & ->).
      exists (q :: X), x, Y. rewrite lf_lines_cons, <- app_assoc. auto.
Qed.

(** The end of a message is where it is. *)
Lemma liberal_unique w ls r ls' r' : liberal_transfer w ls r -> liberal_transfer w ls' r' -> ls = ls' /\ r = r'.
Proof.
  assert (LE : forall e, liberal_end e -> lf_line e).
  { intros e [-> | ->] H; cbn in H; intuition discriminate. }
  intros (e & F1 & F2 & He & ->) (e' & F1' & F2' & He' & E).
  revert ls' F1' F2' E; induction ls as [| l ls IH]; intros ls' F1' F2' E.
  - destruct ls' as [| l' ls'].
    + cbn [lf_lines map concat app] in E. apply first_lf in E as (_ & ->); auto.
    + rewrite lf_lines_cons, <- app_assoc in E. cbn [lf_lines map concat app] in E.
      inversion F1'; inversion F2'; subst.
      apply first_lf in E as (-> & _); auto. contradiction.
  - inversion F1; inversion F2; subst. rewrite lf_lines_cons, <- app_assoc in E.
    destruct ls' as [| l' ls'].
    + cbn [lf_lines map concat app] in E. apply first_lf in E as (-> & _); auto. contradiction.
    + inversion F1'; inversion F2'; subst. rewrite lf_lines_cons, <- app_assoc in E. cbn [app] in E.
      apply first_lf in E as (-> & E); auto. destruct (IH ltac:(auto) ltac:(auto) ls') as (-> & ->); auto.
Qed.

(** ** The lines of the encoding *)
Definition ends_cr (q : bytes) : bool := (last q 0 =? CR)%N.
(** Of the lines of the text, those that follow a CRLF (and the first) are stuffed. *)
Fixpoint stuffed (start : bool) (Q : list bytes) : list bytes :=
  match Q with
  | [] => []
  | q :: Q => (if start then dot_stuff q else q) :: stuffed (ends_cr q) Q
  end.
Lemma ends_cr_app q : ends_cr (q ++ [CR]) = true.
Proof. unfold ends_cr. rewrite last_last. reflexivity. Qed.
Lemma ends_cr_iff q : ends_cr q = true <-> ends_with_cr q.
Proof.
  unfold ends_with_cr. split.
  - destruct (rev q) as [| c r] eqn:E.
    + apply (f_equal (@rev N)) in E. rewrite rev_involutive in E. subst. discriminate.
    + apply (f_equal (@rev N)) in E. rewrite rev_involutive in E. cbn [rev] in E. subst. unfold ends_cr.
      rewrite last_last. intros H. apply N.eqb_eq in H. subst. eexists; reflexivity.
  - intros (a & ->). apply ends_cr_app.
Qed.
(** Pieces of a line, cut at its line feeds. *)
Lemma split_lf l : exists ps p, l = lf_lines ps ++ p /\ Forall lf_line ps /\ lf_line p.
Proof.
  induction l as [| c l (ps & p & -> & F & P)].
  - exists [], []. repeat split; auto. intros [].
  - destruct (N.eq_dec c LF) as [-> | NE].
    + exists ([] :: ps), p. rewrite lf_lines_cons. repeat split; auto. constructor; auto. intros [].
    + destruct ps as [| q ps].
      * exists [], (c :: p). repeat split; auto. intros [H | H]; [congruence | auto].
      * inversion F; subst. exists ((c :: q) :: ps), p. rewrite !lf_lines_cons. repeat split; auto.
        constructor; auto. intros [H' | H']; [congruence | auto].
Qed.
Lemma piece_no_cr q a b : is_line (a ++ q ++ LF :: b) -> ends_cr q = false.
Proof.
  intros H. destruct (ends_cr q) eqn:E; auto. apply ends_cr_iff in E as (q' & ->).
  exfalso. apply H. exists (a ++ q'), b. rewrite <- !app_assoc. reflexivity.
Qed.
Lemma pieces_no_cr a ps p : is_line (a ++ lf_lines ps ++ p) -> Forall (fun q => ends_cr q = false) ps.
Proof.
  revert a; induction ps as [| q ps IH]; intros a H; constructor.
  - rewrite lf_lines_cons, <- app_assoc in H. cbn [app] in H. eapply piece_no_cr; eauto.
  - rewrite lf_lines_cons, <- app_assoc in H. cbn [app] in H. apply (IH (a ++ q ++ [LF])).
    rewrite <- !app_assoc. exact H.
Qed.
Lemma stuffed_pieces ps p Q : Forall (fun q => ends_cr q = false) ps ->
  lf_lines (stuffed false (ps ++ (p ++ [CR]) :: Q)) = lf_lines ps ++ p ++ CRLF ++ lf_lines (stuffed true Q).
Proof.
  induction 1 as [| q ps Hq F IH]; cbn [app stuffed].
  - rewrite ends_cr_app, lf_lines_cons, <- app_assoc. reflexivity.
  - rewrite Hq, !lf_lines_cons, IH, <- app_assoc. reflexivity.
Qed.
Lemma dot_stuff_app a b : a <> [] -> dot_stuff (a ++ b) = dot_stuff a ++ b.
Proof.
  destruct a as [| c a]; [congruence |]. intros _. cbn [app dot_stuff]. destruct (c =? DOT)%N; reflexivity.
Qed.
Lemma dot_stuff_crlf p b : dot_stuff (p ++ CR :: b) = dot_stuff p ++ CR :: b.
Proof. destruct p; [reflexivity | apply dot_stuff_app; discriminate]. Qed.
Lemma dot_stuff_lf p b : dot_stuff (p ++ LF :: b) = dot_stuff p ++ LF :: b.
Proof. destruct p; [reflexivity | apply dot_stuff_app; discriminate]. Qed.
Lemma encoding_lines L : Forall is_line L -> exists Q, Forall lf_line Q /\ unlines L = lf_lines Q
  /\ unlines (map dot_stuff L) = lf_lines (stuffed true Q).
Proof.
  induction 1 as [| l L Hl F (Q & FQ & E1 & E2)].
  - exists []. repeat split; auto.
  - destruct (split_lf l) as (ps & p & -> & Fp & Hp).
    exists (ps ++ (p ++ [CR]) :: Q). repeat split.
    + apply Forall_app. split; auto. constructor; auto. intros H. apply in_app_or in H as [H | [H | []]]; [auto | discriminate].
    + rewrite unlines_cons, E1, lf_lines_app. rewrite (lf_lines_cons (p ++ [CR]) Q), <- !app_assoc. reflexivity.
    + cbn [map]. rewrite unlines_cons, E2. pose proof (pieces_no_cr [] ps p Hl) as N.
      destruct ps as [| q ps].
      * change (lf_lines [] ++ p) with p. cbn [app stuffed]. rewrite ends_cr_app, lf_lines_cons.
        rewrite dot_stuff_crlf, <- app_assoc. reflexivity.
      * inversion N; subst. cbn [app stuffed]. rewrite H1, (lf_lines_cons (dot_stuff q)), stuffed_pieces by assumption.
        rewrite lf_lines_cons, <- app_assoc. cbn [app]. rewrite dot_stuff_lf, <- app_assoc. cbn [app].
        rewrite <- app_assoc. reflexivity.
Qed.

(** ** Where it ends *)
Lemma stuffed_not_end q : ~ liberal_end (dot_stuff q).
Proof.
  destruct q as [| c q]; cbn [dot_stuff]; [intros [H | H]; discriminate |].
  destruct (N.eqb_spec c DOT) as [-> | NE]; intros [H | H]; try discriminate; injection H; congruence.
Qed.
Lemma dot_stuff_lf_line q : lf_line q -> lf_line (dot_stuff q).
Proof.
  destruct q as [| c q]; cbn [dot_stuff]; auto. intros H. destruct (c =? DOT)%N; auto.
  intros [H' | H']; [discriminate | auto].
Qed.
Lemma stuffed_lf_lines st Q : Forall lf_line Q -> Forall lf_line (stuffed st Q).
Proof.
  intros F; revert st; induction F; intros st; cbn [stuffed]; constructor; auto.
  destruct st; auto. apply dot_stuff_lf_line; auto.
Qed.
(** An end among the lines of the encoding: it was in the text, after a bare line feed. *)
Definition bare_end (st : bool) (Q : list bytes) : Prop :=
  (st = false /\ exists e Y, Q = e :: Y /\ liberal_end e)
  \/ exists X x e Y, Q = X ++ x :: e :: Y /\ ends_cr x = false /\ liberal_end e.
Lemma stuffed_end st Q : Exists liberal_end (stuffed st Q) <-> bare_end st Q.
Proof.
  revert st; induction Q as [| q Q IH]; intros st; cbn [stuffed].
  - split; [intros H; inversion H |]. intros [(_ & e & Y & E & _) | ([| ? ?] & x & e & Y & E & _)]; discriminate.
  - rewrite Exists_cons, IH. split.
    + intros [H | [(E & e & Y & -> & He) | (X & x & e & Y & -> & Hx & He)]].
      * destruct st; [exfalso; eapply stuffed_not_end; eauto |]. left. split; eauto.
      * right. exists [], q, e, Y. auto.
      * right. exists (q :: X), x, e, Y. auto.
    + intros [(-> & e & Y & E & He) | (X & x & e & Y & E & Hx & He)].
      * injection E as -> ->. auto.
      * destruct X as [| q' X]; cbn [app] in E; injection E as -> ->.
        -- right. left. split; eauto.
        -- right. right. exists X, x, e, Y. auto.
Qed.
Lemma ends_app_lf X x : ends_cr x = false -> ~ ends_with_cr (lf_lines X ++ x).
Proof.
  intros H (a & E). destruct x as [| c x].
  - rewrite app_nil_r in E. destruct X as [| q X] using rev_ind.
    + destruct a; discriminate.
    + rewrite lf_lines_app in E. unfold lf_lines in E at 2. cbn [map concat] in E.
      rewrite app_nil_r, app_assoc in E. apply app_inj_tail in E as (_ & E). discriminate.
  - destruct (exists_last (l := c :: x)) as (y & d & Ey); [discriminate |]. rewrite Ey in *.
    rewrite app_assoc in E. apply app_inj_tail in E as (_ & ->). rewrite ends_cr_app in H. discriminate.
Qed.
Lemma hidden_bare Q : Forall lf_line Q -> hidden_end (lf_lines Q) <-> bare_end true Q.
Proof.
  intros F. split.
  - intros (a & b & c & E & Ha & Hb). right.
    change ([LF; DOT] ++ b) with (LF :: (DOT :: b)) in E.
    destruct (lf_lines_at _ _ _ F E) as (X & x & Y & -> & -> & EY).
    apply Forall_app in F as (_ & F). inversion F; subst.
    assert (exists e, DOT :: b = e ++ LF :: c /\ liberal_end e) as (e & Ee & He).
    { destruct Hb as [-> | ->]; [exists [DOT] | exists [DOT; CR]]; split; auto; [left | right]; auto. }
    assert (lf_line e) as Le by (destruct He as [-> | ->]; intros H; cbn in H; intuition discriminate).
    rewrite Ee in EY. symmetry in EY. apply lf_lines_head in EY as (Y' & -> & _); auto.
    exists X, x, e, Y'. repeat split; auto. destruct (ends_cr x) eqn:Ex; auto.
    exfalso. apply Ha. apply ends_cr_iff in Ex as (x' & ->). exists (lf_lines X ++ x'). rewrite app_assoc. reflexivity.
  - intros [(? & _) | (X & x & e & Y & -> & Hx & He)]; [discriminate |].
    rewrite lf_lines_app, !lf_lines_cons.
    exists (lf_lines X ++ x).
    destruct He as [-> | ->]; [exists (LF :: lf_lines Y), (lf_lines Y) | exists (CRLF ++ lf_lines Y), (lf_lines Y)];
      (split; [rewrite <- !app_assoc; reflexivity |]); (split; [apply ends_app_lf; auto | auto]).
Qed.
(** The first end among some lines. *)
Lemma first_end Q next : Forall lf_line Q -> exists ls rest,
  liberal_transfer (lf_lines Q ++ end_line ++ CRLF ++ next) ls rest
  /\ (exists kept, rest = kept ++ next)
  /\ (rest = next <-> ~ Exists liberal_end Q) /\ (~ Exists liberal_end Q -> ls = Q).
Proof.
  induction 1 as [| q Q Hq F (ls & rest & T & (kept & P) & R & K)].
  - exists [], next. split; [exists [DOT; CR]; repeat split; auto; right; auto |].
    split; [exists []; reflexivity |].
    split; [split; auto; intros _ H; inversion H | auto].
  - assert (D : liberal_end q \/ ~ liberal_end q).
    { unfold liberal_end. destruct (list_eq_dec N.eq_dec q [DOT]), (list_eq_dec N.eq_dec q [DOT; CR]); intuition. }
    destruct D as [D | D].
    + exists [], (lf_lines Q ++ end_line ++ CRLF ++ next). split.
      { exists q. repeat split; auto. rewrite lf_lines_cons, <- app_assoc. reflexivity. }
      split; [exists (lf_lines Q ++ end_line ++ CRLF); rewrite <- !app_assoc; reflexivity |].
      split; [| intros H; exfalso; apply H; left; auto].
      split; [| intros H; exfalso; apply H; left; auto].
      intros E. exfalso. apply (f_equal (@length N)) in E. rewrite !app_length in E. cbn in E. lia.
    + exists (q :: ls), rest. split.
      { destruct T as (e & F1 & F2 & He & E). exists e. repeat split; auto. rewrite !lf_lines_cons, <- !app_assoc.
        cbn [app]. rewrite E. reflexivity. }
      split; [exists kept; auto |].
      rewrite Exists_cons. split; [tauto |]. intros H. f_equal. apply K. tauto.
Qed.
(** With a carriage return at every line feed, every line is stuffed. *)
Lemma no_bare_ends Q : Forall lf_line Q -> no_bare_lf (lf_lines Q) -> Forall ends_with_cr Q.
Proof.
  intros F H. apply Forall_forall. intros q Hq. apply in_split in Hq as (X & Y & ->).
  destruct (H (lf_lines X ++ q) (lf_lines Y)) as (a & E).
  { rewrite lf_lines_app, lf_lines_cons, <- app_assoc. reflexivity. }
  destruct (ends_cr q) eqn:Eq; [apply ends_cr_iff; auto |].
  exfalso. eapply ends_app_lf; [exact Eq | exists a; exact E].
Qed.
Lemma stuffed_all Q : Forall ends_with_cr Q -> stuffed true Q = map dot_stuff Q.
Proof.
  induction 1 as [| q Q Hq F IH]; cbn [stuffed map]; auto. apply ends_cr_iff in Hq. rewrite Hq, IH. reflexivity.
Qed.
Lemma strip_cr_app a : strip_cr (a ++ [CR]) = a.
Proof.
  induction a as [| c a IH]; auto. cbn [app strip_cr]. rewrite IH. destruct a; reflexivity.
Qed.
Lemma liberal_text_crlf Q : Forall ends_with_cr Q -> liberal_text (map dot_stuff Q) = lf_lines Q.
Proof.
  unfold liberal_text. induction 1 as [| q Q (a & ->) F IH]; auto.
  cbn [map]. rewrite unlines_cons, IH, lf_lines_cons, dot_stuff_crlf, strip_cr_app, <- app_assoc.
  f_equal. destruct a as [| c a]; auto. cbn [dot_stuff]. destruct (c =? DOT)%N eqn:E; cbn [dot_unstuff]; auto.
  rewrite E. reflexivity.
Qed.
Lemma no_hidden Q : Forall ends_with_cr Q -> ~ bare_end true Q.
Proof.
  intros F [(H & _) | (X & x & e & Y & -> & Hx & _)]; [discriminate |].
  apply Forall_app in F as (_ & F). inversion F as [| ? ? F1 F2]; subst. apply ends_cr_iff in F1. congruence.
Qed.
(** The encoding in terms of what the receiver makes of it. *)
Lemma encoding_normal m w out : message_encoding m w -> normalised m out ->
  exists L, Forall is_line L /\ out = unlines L /\ w = unlines (map dot_stuff L) ++ end_line ++ CRLF.
Proof.
  intros (ls & t & F & Ht & -> & ->) N.
  assert (T : (t = [] /\ (unlines ls ++ t = [] \/ exists m', unlines ls ++ t = m' ++ CRLF)) \/
              (t <> [] /\ ~ (unlines ls ++ t = [] \/ exists m', unlines ls ++ t = m' ++ CRLF))).
  { destruct t as [| c t]; [left; split; auto; rewrite app_nil_r | right; split; [discriminate |]].
    - destruct ls as [| l ls] using rev_ind; [left; reflexivity | right].
      rewrite unlines_app. exists (unlines ls ++ l). unfold unlines at 2. cbn [map concat].
      rewrite app_nil_r, <- app_assoc. reflexivity.
    - intros [E | (m' & E)].
      + apply app_eq_nil in E as (_ & E); discriminate.
      + destruct (exists_last (l := c :: t)) as (y & d & Ey); [discriminate |]. rewrite Ey in *.
        change CRLF with ([CR] ++ [LF]) in E. rewrite !app_assoc in E. apply app_inj_tail in E as (E & ->).
        destruct y as [| b y] using rev_ind.
        * rewrite app_nil_r in E. destruct ls as [| l ls _] using rev_ind.
          -- destruct m'; discriminate.
          -- rewrite unlines_app in E. unfold unlines at 2 in E. cbn [map concat] in E. rewrite app_nil_r in E.
             change CRLF with ([CR] ++ [LF]) in E. rewrite !app_assoc in E. apply app_inj_tail in E as (_ & E). discriminate.
        * rewrite app_assoc in E. apply app_inj_tail in E as (_ & ->). apply Ht. exists y, [].
          rewrite <- !app_assoc. reflexivity. }
  destruct N as [(N & ->) | (N & ->)]; destruct T as [(-> & T) | (NE & T)]; try contradiction.
  - exists ls. rewrite app_nil_r. repeat split; auto.
  - exists (ls ++ [t]). split; [apply Forall_app; auto |].
    rewrite map_app, !unlines_app. cbn [map]. rewrite !unlines_cons. change (unlines []) with (@nil BinNums.N).
    rewrite !app_nil_r, <- !app_assoc.
    split; auto. destruct t; [congruence |]. rewrite <- !app_assoc. reflexivity.
Qed.
Lemma no_bare_normal m out : normalised m out -> no_bare_lf m -> no_bare_lf out.
Proof.
  intros [(_ & ->) | (_ & ->)] H; auto. intros a b E.
  destruct (exists_last (l := LF :: b)) as (b' & d & Eb); [discriminate |]. rewrite Eb in E.
  change CRLF with ([CR] ++ [LF]) in E. rewrite !app_assoc in E. apply app_inj_tail in E as (E & <-).
  destruct b' as [| x b'].
  - rewrite app_nil_r in E. exists m. auto.
  - cbn [app] in Eb. injection Eb as <- ->.
    destruct (exists_last (l := LF :: b')) as (c & d & Ec); [discriminate |].
    rewrite Ec in E. rewrite app_assoc in E. apply app_inj_tail in E as (E & <-).
    destruct c as [| x c]; [discriminate |]. cbn [app] in Ec. injection Ec as <- ->.
    apply (H a c). auto.
Qed.
