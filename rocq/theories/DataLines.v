(** The automaton [dec] computes exactly the line-level specification. *)
From Verif Require Import Bytes Stream SpecData DataProofs.

(** ** Lines *)
Lemma contains_nil sub : contains sub [] -> sub = [].
Proof.
  intros (u & v & E). destruct u; destruct sub; cbn in E; congruence.
Qed.
Lemma contains_cons sub a l : contains sub l -> contains sub (a :: l).
Proof. intros (u & v & E). exists (a :: u), v. cbn. congruence. Qed.
Lemma is_line_cons a l : is_line (a :: l) -> is_line l.
Proof. unfold is_line. intros H C. apply H. now apply contains_cons. Qed.
Lemma is_line_nil : is_line [].
Proof. intros C. apply contains_nil in C. discriminate. Qed.
Lemma contains_crlf_cons a l :
  contains CRLF (a :: l) <-> (a = CR /\ exists l', l = LF :: l') \/ contains CRLF l.
Proof.
  split.
  - intros (u & v & E). destruct u as [|c u]; cbn in E.
    + injection E as -> E. left. eauto.
    + injection E as -> E. right. exists u, v. exact E.
  - intros [[-> [l' ->]]|H]; [exists [], l'; reflexivity|now apply contains_cons].
Qed.
Lemma is_line_cons_iff a l :
  is_line (a :: l) <-> ~ (a = CR /\ exists l', l = LF :: l') /\ is_line l.
Proof. unfold is_line. rewrite contains_crlf_cons. tauto. Qed.
Lemma contains_app_l sub a b : contains sub a -> contains sub (a ++ b).
Proof. intros (u & v & ->). exists u, (v ++ b). now rewrite <- !app_assoc. Qed.
Lemma contains_app_r sub a b : contains sub b -> contains sub (a ++ b).
Proof. intros (u & v & ->). exists (a ++ u), v. now rewrite <- !app_assoc. Qed.
Lemma is_line_app_l a b : is_line (a ++ b) -> is_line a.
Proof. unfold is_line. intros H C. apply H. now apply contains_app_l. Qed.
Lemma is_line_app_r a b : is_line (a ++ b) -> is_line b.
Proof. unfold is_line. intros H C. apply H. now apply contains_app_r. Qed.

Lemma unlines_app a b : unlines (a ++ b) = unlines a ++ unlines b.
Proof. unfold unlines. now rewrite map_app, concat_app. Qed.
Lemma unlines_cons l ls : unlines (l :: ls) = l ++ CRLF ++ unlines ls.
Proof. unfold unlines. cbn. now rewrite <- app_assoc. Qed.

(** Every byte string is lines and an unterminated tail, in exactly one way. *)
Lemma first_crlf l : is_line l \/ exists a b, l = a ++ CRLF ++ b /\ is_line a.
Proof.
  induction l as [|c l IH]; [left; apply is_line_nil|].
  destruct (N.eq_dec c CR) as [->|Hc].
  - destruct l as [|d l]; [left; rewrite is_line_cons_iff; split;
      [intros [_ [l' C]]; discriminate|apply is_line_nil]|].
    destruct (N.eq_dec d LF) as [->|Hd].
    + right. exists [], l. split; [reflexivity|apply is_line_nil].
    + destruct IH as [IH|(a & b & E & Ha)].
      * left. rewrite is_line_cons_iff. split; [intros [_ [l' C]]; congruence|exact IH].
      * right. exists (CR :: a), b. split; [cbn; now rewrite E|].
        rewrite is_line_cons_iff. split; [|exact Ha]. intros [_ [l' ->]]. cbn in E. congruence.
  - destruct IH as [IH|(a & b & E & Ha)].
    + left. rewrite is_line_cons_iff. tauto.
    + right. exists (c :: a), b. split; [cbn; now rewrite E|]. rewrite is_line_cons_iff. tauto.
Qed.
Lemma lines_exist l : exists ls t, l = unlines ls ++ t /\ Forall is_line ls /\ is_line t.
Proof.
  remember (length l) as n eqn:Hn. revert l Hn.
  induction n as [n IH] using lt_wf_ind. intros l ->.
  destruct (first_crlf l) as [H|(a & b & -> & Ha)].
  - exists [], l. repeat split; auto.
  - destruct (IH (length b)) with (l := b) as (ls & t & -> & Hls & Ht).
    + rewrite !app_length. cbn. lia.
    + reflexivity.
    + exists (a :: ls), t. rewrite unlines_cons, <- !app_assoc. repeat split; auto.
Qed.

Lemma first_crlf_unique a b a' b' :
  is_line a -> is_line a' -> a ++ CRLF ++ b = a' ++ CRLF ++ b' -> a = a' /\ b = b'.
Proof.
  revert a'. induction a as [|c a IH]; intros a' Ha Ha' E.
  - destruct a' as [|c' a']; [cbn in E; injection E; auto|].
    cbn in E. injection E as <- E. exfalso. apply Ha'.
    destruct a' as [|d a']; cbn in E; [discriminate|].
    injection E as <- E. exists [], a'. reflexivity.
  - destruct a' as [|c' a'].
    + cbn in E. injection E as -> E. exfalso. apply Ha.
      destruct a as [|d a]; cbn in E; [discriminate|].
      injection E as -> E. exists [], a. reflexivity.
    + cbn in E. injection E as <- E.
      destruct (IH a' (is_line_cons _ _ Ha) (is_line_cons _ _ Ha') E) as [-> ->]. auto.
Qed.
Lemma lines_unique : forall ls t ls' t',
  Forall is_line ls -> Forall is_line ls' -> is_line t -> is_line t' ->
  unlines ls ++ t = unlines ls' ++ t' -> ls = ls' /\ t = t'.
Proof.
  induction ls as [|l ls IH]; intros t ls' t' Hls Hls' Ht Ht' E.
  - destruct ls' as [|l' ls']; [auto|]. exfalso. apply Ht. change (unlines [] ++ t) with t in E. rewrite E.
    rewrite unlines_cons. exists l', (unlines ls' ++ t'). now rewrite <- !app_assoc.
  - destruct ls' as [|l' ls'].
    + exfalso. apply Ht'. change (unlines [] ++ t') with t' in E. rewrite <- E.
      rewrite unlines_cons. exists l, (unlines ls ++ t). now rewrite <- !app_assoc.
    + rewrite !unlines_cons, <- !app_assoc in E. inversion Hls; inversion Hls'; subst.
      apply first_crlf_unique in E; auto. destruct E as [-> E].
      destruct (IH t ls' t') as [-> ->]; auto.
Qed.

(** ** [dec] on one line *)
Definition carry (st : ds_state) (l : bytes) : bytes :=
  match st with CrPassed => CR :: l | _ => l end.

Lemma dec_running_line : forall l st rest,
  (st = Running \/ st = CrPassed) -> is_line (carry st l) ->
  dec st (l ++ CRLF ++ rest) = padd (l ++ CRLF) (dec CrLfPassed rest).
Proof.
  induction l as [|a l IH]; intros st rest Hst Hl; [reflexivity|].
  cbn [app]. rewrite padd_cons.
  destruct (N.eqb_spec a CR) as [->|Hcr].
  - rewrite dec_cons_cr. rewrite IH; auto.
    destruct Hst as [-> | ->]; cbn [carry] in *; [exact Hl|exact (is_line_cons _ _ Hl)].
  - rewrite dec_cons_other.
    + rewrite IH; auto. cbn [carry].
      destruct Hst as [-> | ->]; cbn [carry] in *;
        [exact (is_line_cons _ _ Hl)|exact (is_line_cons _ _ (is_line_cons _ _ Hl))].
    + now apply N.eqb_neq.
    + destruct Hst as [-> | ->]; auto. apply N.eqb_neq. intros ->. cbn [carry] in Hl.
      rewrite is_line_cons_iff in Hl. destruct Hl as [Hl _]. apply Hl. eauto.
Qed.
Lemma dec_running_tail : forall t st,
  (st = Running \/ st = CrPassed) -> is_line (carry st t) -> dec st t = (t, None).
Proof.
  induction t as [|a l IH]; intros st Hst Hl; [reflexivity|].
  destruct (N.eqb_spec a CR) as [->|Hcr].
  - rewrite dec_cons_cr. rewrite IH; auto.
    destruct Hst as [-> | ->]; cbn [carry] in *; [exact Hl|exact (is_line_cons _ _ Hl)].
  - rewrite dec_cons_other.
    + rewrite IH; auto. cbn [carry].
      destruct Hst as [-> | ->]; cbn [carry] in *;
        [exact (is_line_cons _ _ Hl)|exact (is_line_cons _ _ (is_line_cons _ _ Hl))].
    + now apply N.eqb_neq.
    + destruct Hst as [-> | ->]; auto. apply N.eqb_neq. intros ->. cbn [carry] in Hl.
      rewrite is_line_cons_iff in Hl. destruct Hl as [Hl _]. apply Hl. eauto.
Qed.

Lemma dec_start_nodot l st : active st -> is_line (carry st l) ->
  match l with a :: _ => (a =? DOT)%N = false | [] => True end ->
  dec CrLfPassed l = dec Running l.
Proof.
  intros _ _ H. destruct l as [|a l]; [reflexivity|].
  destruct (N.eqb_spec a CR) as [->|Hcr]; [reflexivity|].
  rewrite !dec_cons_other; auto; now apply N.eqb_neq.
Qed.
Lemma dec_dot l : dec CrLfPassed (DOT :: l) =
  match l with
  | [] => ([], None)
  | [y] => if (y =? CR)%N then ([], None) else dec Running l
  | y :: z :: rest => if (y =? CR)%N && (z =? LF)%N then ([], Some rest) else dec Running l
  end.
Proof. reflexivity. Qed.

Lemma dec_line l rest : is_line l ->
  dec CrLfPassed (l ++ CRLF ++ rest) =
  if beq l end_line then ([], Some rest)
  else padd (dot_unstuff l ++ CRLF) (dec CrLfPassed rest).
Proof.
  intros Hl. destruct l as [|a l].
  - reflexivity.
  - destruct (N.eqb_spec a DOT) as [->|Hd].
    + destruct l as [|y l]; [reflexivity|].
      change (beq (DOT :: y :: l) end_line) with (true && beq (y :: l) [])%bool.
      cbn [andb beq dot_unstuff]. change (DOT =? DOT)%N with true. cbv iota.
      rewrite <- dec_running_line with (st := Running);
        [| auto | cbn [carry]; eapply is_line_cons; eassumption].
      change ((DOT :: y :: l) ++ CRLF ++ rest) with (DOT :: (y :: l) ++ CRLF ++ rest).
      rewrite dec_dot. cbn [app].
      destruct (l ++ CRLF ++ rest) as [|z r] eqn:E; [destruct l; discriminate|].
      destruct ((y =? CR)%N && (z =? LF)%N) eqn:Eb; [|reflexivity].
      eqb_subst. exfalso. apply Hl. destruct l as [|c l]; [discriminate|].
      cbn in E. injection E as -> E. exists [DOT], l. reflexivity.
    + assert (Hn : beq (a :: l) end_line = false).
      { cbn. apply N.eqb_neq in Hd. now rewrite Hd. }
      rewrite Hn. apply N.eqb_neq in Hd.
      cbn [dot_unstuff]. rewrite Hd.
      rewrite <- dec_running_line with (st := Running); auto.
      destruct (N.eqb_spec a CR) as [->|Hcr]; [reflexivity|]. apply N.eqb_neq in Hcr.
      cbn [app]. rewrite !dec_cons_other; auto.
Qed.
Lemma dec_tail t : is_line t ->
  (undecided t /\ dec CrLfPassed t = ([], None))
  \/ (~ undecided t /\ dec CrLfPassed t = (dot_unstuff t, None)).
Proof.
  intros Ht. destruct t as [|a t].
  - right. split; [intros [C|C]; discriminate|reflexivity].
  - destruct (N.eqb_spec a DOT) as [->|Hd].
    + destruct t as [|y t]; [left; split; [now left|reflexivity]|].
      assert (Ht' : is_line (y :: t)) by (eapply is_line_cons; eassumption).
      pose proof (dec_running_tail (y :: t) Running (or_introl eq_refl) Ht') as Hr.
      rewrite dec_dot.
      destruct t as [|z t].
      * destruct (N.eqb_spec y CR) as [->|Hy]; [left; split; [now right|reflexivity]|].
        right. split; [intros [C|C]; congruence|exact Hr].
      * right. split; [intros [C|C]; congruence|].
        destruct ((y =? CR)%N && (z =? LF)%N) eqn:Eb; [|exact Hr].
        eqb_subst. exfalso. apply Ht. exists [DOT], t. reflexivity.
    + right. split; [intros [C|C]; congruence|].
      apply N.eqb_neq in Hd. cbn [dot_unstuff]. rewrite Hd.
      pose proof (dec_running_tail (a :: t) Running (or_introl eq_refl) Ht) as Hr.
      destruct (N.eqb_spec a CR) as [->|Hcr]; [exact Hr|]. apply N.eqb_neq in Hcr.
      rewrite dec_cons_other in Hr |- *; auto.
Qed.

Lemma beq_eq a b : beq a b = true <-> a = b.
Proof.
  revert b; induction a as [|x a IH]; intros [|y b]; cbn; split; intros H; try congruence.
  - apply andb_true_iff in H. destruct H as [H1 H2]. apply N.eqb_eq in H1. apply IH in H2. congruence.
  - injection H as -> ->. rewrite N.eqb_refl. cbn. now apply IH.
Qed.
Lemma beq_refl a : beq a a = true.
Proof. now apply beq_eq. Qed.
Lemma beq_neq a b : beq a b = false <-> a <> b.
Proof.
  rewrite <- beq_eq. destruct (beq a b); split; congruence.
Qed.

Lemma dec_lines ls rest : Forall is_line ls -> Forall (fun l => l <> end_line) ls ->
  dec CrLfPassed (unlines ls ++ rest) = padd (unlines (map dot_unstuff ls)) (dec CrLfPassed rest).
Proof.
  induction 1 as [|l ls Hl Hls IH]; intros Hne.
  - cbn. now rewrite padd_nil.
  - inversion Hne; subst. rewrite unlines_cons, <- !app_assoc, dec_line by assumption.
    apply beq_neq in H1. rewrite H1. cbn [map]. rewrite unlines_cons.
    rewrite IH by assumption. rewrite <- padd_app. f_equal. now rewrite <- app_assoc.
Qed.

Lemma transfer_dec wire out rest : transfer wire out rest -> dec CrLfPassed wire = (out, Some rest).
Proof.
  intros (ls & Hls & Hne & -> & ->). rewrite dec_lines by assumption.
  rewrite <- app_assoc, dec_line by (intros (u & v & E); destruct u as [|? [|? ?]]; discriminate).
  rewrite beq_refl. unfold padd. cbn. now rewrite app_nil_r.
Qed.
Lemma interrupted_dec wire out : interrupted wire out -> dec CrLfPassed wire = (out, None).
Proof.
  intros (ls & t & Hls & Hne & Ht & -> & H). rewrite dec_lines by assumption.
  destruct (dec_tail t Ht) as [[Hu Hd]|[Hu Hd]]; rewrite Hd; unfold padd; cbn [fst snd];
    destruct H as [[Hu' ->]|[Hu' ->]]; try tauto; now rewrite ?app_nil_r.
Qed.
Lemma wire_cases wire : (exists out rest, transfer wire out rest) \/ (exists out, interrupted wire out).
Proof.
  destruct (lines_exist wire) as (ls & t & -> & Hls & Ht).
  assert (H : Forall (fun l => l <> end_line) ls \/
    exists a b, ls = a ++ end_line :: b /\ Forall (fun l => l <> end_line) a).
  { clear Hls. induction ls as [|l ls IH]; [left; constructor|].
    destruct (beq l end_line) eqn:E.
    - apply beq_eq in E. subst. right. exists [], ls. auto.
    - apply beq_neq in E. destruct IH as [IH|(a & b & -> & Ha)]; [left; auto|].
      right. exists (l :: a), b. auto. }
  destruct H as [H|(a & b & -> & Ha)].
  - right. destruct (dec_tail t Ht) as [[Hu _]|[Hu _]].
    + exists (unlines (map dot_unstuff ls)). exists ls, t. repeat split; auto.
    + exists (unlines (map dot_unstuff ls) ++ dot_unstuff t). exists ls, t. repeat split; auto.
  - left. exists (unlines (map dot_unstuff a)), (unlines b ++ t). exists a.
    apply Forall_app in Hls. repeat split; auto; [apply Hls|].
    rewrite unlines_app, unlines_cons, <- !app_assoc. reflexivity.
Qed.
Theorem dec_transfer wire out rest :
  dec CrLfPassed wire = (out, Some rest) <-> transfer wire out rest.
Proof.
  split; [|apply transfer_dec]. intros H.
  destruct (wire_cases wire) as [(o & r & Ht)|(o & Hi)].
  - pose proof (transfer_dec _ _ _ Ht). congruence.
  - apply interrupted_dec in Hi. congruence.
Qed.
Theorem dec_interrupted wire out :
  dec CrLfPassed wire = (out, None) <-> interrupted wire out.
Proof.
  split; [|apply interrupted_dec]. intros H.
  destruct (wire_cases wire) as [(o & r & Ht)|(o & Hi)].
  - apply transfer_dec in Ht. congruence.
  - pose proof (interrupted_dec _ _ Hi). congruence.
Qed.
