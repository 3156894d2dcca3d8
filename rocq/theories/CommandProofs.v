(** The parsers of parameters and commands decide the grammar. *)
From Verif Require Import Bytes Nom Ip Message SpecData SpecGrammar DataLines NomLemmas GrammarProofs.

(** ** Blanks *)
Lemma blank_in c : blank c <-> In c spaces.
Proof. unfold blank, spaces. cbn. intuition congruence. Qed.
Lemma blanks_okend w : blanks w -> okend w.
Proof. apply over_set_okend; reflexivity. Qed.
Lemma eat_spaces_sound i r x : eat_spaces i = Done r x ->
  i = x ++ r /\ blanks x /\ stops (fun c => mem c spaces) r.
Proof. apply eat_sound. Qed.
Lemma eat_spaces_app w r : blanks w -> stops (fun c => mem c spaces) r -> eat_spaces (w ++ r) = Done r w.
Proof. apply eat_app. Qed.
Lemma eat_spaces_fuel : pfuel eat_spaces.
Proof. intros i. destruct (eat_done spaces i) as (r & x & H). unfold eat_spaces. rewrite H. discriminate. Qed.
Lemma eat_spaces_not_inc i : eat_spaces i <> Incomplete.
Proof. destruct (eat_done spaces i) as (r & x & H). unfold eat_spaces. rewrite H. discriminate. Qed.
Lemma eat_spaces_term i r x : term i -> eat_spaces i = Done r x -> term r.
Proof.
  intros Hi H. apply eat_spaces_sound in H. destruct H as (-> & Hx & _).
  eapply term_suffix; [exact Hi|now apply blanks_okend].
Qed.

(** ** One parameter *)
Definition value_p : parser bytes := preceded (tag (s2b "=")) (is_a graph_except_equ).
Lemma label_text_okend k : label_text k -> okend k.
Proof. intros H. apply label_text_set in H. now apply (over_set_okend alnumdash). Qed.

Lemma label_rec_sound i r k : recognize label i = Done r k -> i = k ++ r /\ label_text k.
Proof.
  intros H. apply (recognize_sound _ _ label_sound) in H. destruct H as (s & -> & -> & _ & H). auto.
Qed.
Lemma label_rec_app k r : label_text k -> stops (fun c => mem c alnumdash) r ->
  recognize label (k ++ r) = Done r k.
Proof.
  intros Hk Hr. destruct (label_complete k r Hk Hr) as [x Hx]. now apply (recognize_app _ _ _ x).
Qed.

(** What one successful pass consumed; the value can be empty only if the
    input ended there. *)
Lemma parameter_inv i r x : parameter i = Done r x ->
  exists w k, w <> [] /\ blanks w /\ label_text k /\
   ((i = w ++ k ++ r /\ x = (k, None))
    \/ exists v, i = w ++ k ++ s2b "=" ++ v ++ r /\ x = (k, Some v) /\ over_set graph_except_equ v
                 /\ (v = [] -> r = [])).
Proof.
  intros H. unfold parameter in H. inv_bind H. apply one_of_sound in E. destruct E as (s & -> & -> & Hc).
  inv_bind H. apply eat_spaces_sound in E. destruct E as (-> & Hw & _).
  inv_bind H. apply label_rec_sound in E. destruct E as (-> & Hk).
  inv_bind H. injection H as <- <-. rename y into c, y0 into w, y1 into k.
  exists (c :: w), k. split; [discriminate|]. split; [now constructor|]. split; [exact Hk|].
  apply opt_Done in E. destruct E as [(v & E & ->)|(E & -> & ->)]; [right|left].
  - apply complete_inv in E. unfold preceded in E. inv_bind E. apply tag_Done in E0.
    destruct E0 as [-> _]. apply is_a_sound in E. destruct E as (-> & Hv & Hne & _).
    exists v. repeat split; auto.
    intros ->. now apply Hne.
  - auto.
Qed.
Lemma parameter_soundr i r x : parameter i = Done r x ->
  exists s, i = s ++ r /\ (param_text s x \/ r = []).
Proof.
  intros H. apply parameter_inv in H. destruct H as (w & k & Hw & Hb & Hk & [[-> ->]|(v & -> & -> & Hv & He)]).
  - exists (w ++ k). split; [now rewrite <- app_assoc|]. left. now constructor.
  - exists (w ++ k ++ s2b "=" ++ v). split; [now rewrite <- !app_assoc|].
    destruct v as [|c v]; [right; now apply He|]. left. constructor; auto; [discriminate|now apply over_gee].
Qed.
Lemma parameter_weak : psound parameter (fun s _ => okend s).
Proof.
  intros i r x H. apply parameter_inv in H. destruct H as (w & k & Hw & Hb & Hk & [[-> ->]|(v & -> & -> & Hv & He)]).
  - exists (w ++ k). split; [now rewrite <- app_assoc|].
    apply okend_app2; [now apply blanks_okend|now apply label_text_okend].
  - exists (w ++ k ++ s2b "=" ++ v). split; [now rewrite <- !app_assoc|].
    apply okend_app2; [now apply blanks_okend|]. apply okend_app2; [now apply label_text_okend|].
    apply okend_app2; [apply okend_forall; repeat constructor; discriminate|].
    now apply (over_set_okend graph_except_equ).
Qed.
Lemma paramc_gee c : mem c graph_except_equ = true -> paramc c = true.
Proof. unfold paramc. now intros ->. Qed.
Lemma paramc_alnumdash c : mem c alnumdash = true -> paramc c = true.
Proof. intros H. apply paramc_gee. revert H. apply mem_impl. reflexivity. Qed.
Lemma label_stops_blank k r : label_text k -> stops (fun c => mem c spaces) (k ++ r).
Proof.
  intros H. apply label_text_iff in H. destruct H as (c & k' & -> & Hc & _). cbn [app stops]. apply mem_not_In. intros C.
  apply blank_in in C. destruct C as [->| ->].
  - apply (in_neq _ SP _ Hc); reflexivity.
  - apply (in_neq _ TAB _ Hc); reflexivity.
Qed.
Lemma parameter_app s x r : param_text s x -> stops paramc r -> parameter (s ++ r) = Done r x.
Proof.
  intros H Hr. unfold parameter.
  assert (Hgo : forall w k u (f : bytes -> bytes -> iresult (bytes * option bytes)),
    w <> [] -> blanks w -> label_text k -> stops (fun c => mem c alnumdash) u ->
    bind (one_of spaces (w ++ k ++ u)) (fun i _ => bind (eat_spaces i) (fun i _ =>
      bind (recognize label i) f)) = f u k).
  { intros w k u f Hw Hb Hk Hu. destruct w as [|c w]; [congruence|]. inversion Hb; subst.
    cbn [app]. rewrite one_of_app by assumption. cbn [bind].
    rewrite eat_spaces_app; [|assumption|now apply label_stops_blank]. cbn [bind].
    rewrite label_rec_app by assumption. reflexivity. }
  destruct H as [w k Hw Hb Hk|w k v Hw Hb Hk Hv Hvs].
  - rewrite <- app_assoc. rewrite Hgo; auto.
    + rewrite opt_none; [reflexivity|]. unfold complete, preceded.
      destruct r as [|c r]; [reflexivity|]. cbn in Hr. unfold paramc in Hr.
      apply orb_false_iff in Hr. change (s2b "=") with [EQU]. rewrite tag_Err; [reflexivity|]. apply Hr.
    + eapply stops_impl; [|exact Hr]. apply paramc_alnumdash.
  - rewrite <- !app_assoc. rewrite Hgo; auto; [|reflexivity].
    erewrite opt_some; [reflexivity|]. apply complete_Done. unfold preceded.
    rewrite tag_app. cbn [bind]. apply over_gee in Hvs. apply is_a_app; auto. eapply stops_impl; [|exact Hr]. apply paramc_gee.
Qed.
Lemma parameter_fuel : pfuel parameter.
Proof.
  intros i. apply bind_fuel; [apply one_of_fuel|]. intros. apply bind_fuel; [apply eat_spaces_fuel|].
  intros. apply bind_fuel; [|intros; apply bind_fuel; [|intros; discriminate]].
  - apply bind_fuel; [apply label_fuel|intros; discriminate].
  - apply opt_fuel, complete_fuel. intros j. apply bind_fuel; [apply tag_fuel|]. intros. apply is_a_fuel.
Qed.
Lemma parameter_term : pterm parameter.
Proof.
  intros i Hi. apply bind_inc; [now apply one_of_term|]. intros i1 x1 E.
  apply one_of_sound in E. destruct E as (s & -> & -> & Hc).
  assert (H1 : term i1).
  { apply (term_cons x1); [exact Hi|neq_set Hc|neq_set Hc]. }
  apply bind_inc; [apply eat_spaces_not_inc|]. intros i2 x2 E.
  apply eat_spaces_term in E; [|exact H1].
  apply bind_inc; [apply bind_inc; [now apply label_term|intros; discriminate]|].
  intros. apply bind_inc; [|intros; discriminate]. apply opt_inc, complete_not_inc.
Qed.
Lemma parameter_end w : blanks w -> parameter (w ++ CRLF) = Err.
Proof.
  intros H. unfold parameter. destruct w as [|c w]; [reflexivity|]. inversion H; subst.
  cbn [app]. rewrite one_of_app by assumption. cbn [bind].
  rewrite eat_spaces_app; [reflexivity|assumption|reflexivity].
Qed.
Lemma parameter_end_r w r : blanks w -> parameter (w ++ CRLF ++ r) = Err.
Proof.
  intros H. unfold parameter. destruct w as [|c w]; [reflexivity|]. inversion H; subst.
  cbn [app]. rewrite one_of_app by assumption. cbn [bind].
  rewrite (eat_spaces_app w (CRLF ++ r)); [reflexivity|assumption|reflexivity].
Qed.

(** ** Parameter lists *)
Lemma many_param_sound : forall fuel i r xs, many0_loop fuel parameter i = Done r xs ->
  exists ss, i = concat ss ++ r /\ (Forall2 param_text ss xs \/ r = []).
Proof.
  induction fuel as [|fuel IH]; intros i r xs H; [discriminate|]. cbn [many0_loop] in H.
  destruct i as [|c i].
  - injection H as <- <-. exists []. split; [reflexivity|left; constructor].
  - destruct (parameter (c :: i)) as [i2 y| | |] eqn:Es; try discriminate.
    + destruct (Nat.eqb _ _); [discriminate|]. inv_bind H. injection H as <- <-.
      apply parameter_soundr in Es. destruct Es as (s & Es & Hs). apply IH in E.
      destruct E as (ss & -> & Hss). exists (s :: ss). split; [cbn; now rewrite <- app_assoc|].
      destruct Hs as [Hs|Hs]; [|apply app_eq_nil in Hs; right; tauto].
      destruct Hss as [Hss| ->]; [left; now constructor|now right].
    + injection H as <- <-. exists []. split; [reflexivity|left; constructor].
Qed.
Lemma params_get_insert k k' v m :
  params_get k (params_insert k' v m) = if beq k k' then Some v else params_get k m.
Proof.
  induction m as [|(k2, v2) m IH]; cbn [params_insert params_get]; [reflexivity|].
  destruct (beq k' k2) eqn:E; cbn [params_get].
  - apply beq_eq in E. subst k2. destruct (beq k k'); reflexivity.
  - rewrite IH. destruct (beq k k2) eqn:E2; [|reflexivity].
    destruct (beq k k') eqn:E3; [|reflexivity]. apply beq_eq in E2, E3. subst.
    rewrite beq_refl in E. discriminate.
Qed.
Lemma in_insert k v m x : In x (map fst (params_insert k v m)) -> x = k \/ In x (map fst m).
Proof.
  induction m as [|(k2, v2) m IH]; cbn [params_insert map fst In].
  - intros [<-|[]]. auto.
  - destruct (beq k k2) eqn:E; cbn [map fst In].
    + intros [<-|H]; auto.
    + intros [<-|H]; auto. destruct (IH H); auto.
Qed.
Lemma insert_nodup k v m : NoDup (map fst m) -> NoDup (map fst (params_insert k v m)).
Proof.
  induction m as [|(k2, v2) m IH]; cbn [params_insert map fst]; intros H.
  - repeat constructor. intros [].
  - inversion H as [|? ? H1 H2]; subst. destruct (beq k k2) eqn:E; cbn [map fst].
    + now constructor.
    + constructor; [|now apply IH]. intros C. apply in_insert in C. destruct C as [->|C]; [|auto].
      rewrite beq_refl in E. discriminate.
Qed.
Lemma collect_gen : forall l m, NoDup (map fst m) ->
  let m' := fold_left (fun m kv => params_insert (fst kv) (snd kv) m) l m in
  NoDup (map fst m') /\
  forall k, params_get k m' = match last_value k l with Some w => Some w | None => params_get k m end.
Proof.
  induction l as [|(k2, v2) l IH]; intros m Hm; cbn [fold_left fst snd last_value]; [auto|].
  destruct (IH (params_insert k2 v2 m)) as [H1 H2]; [now apply insert_nodup|].
  split; [exact H1|]. intros k. rewrite H2. destruct (last_value k l); [reflexivity|].
  rewrite params_get_insert. destruct (beq k k2); reflexivity.
Qed.
Lemma collect_last_wins l : last_wins l (params_collect l).
Proof.
  destruct (collect_gen l []) as [H1 H2]; [constructor|]. split; [exact H1|].
  intros k. etransitivity; [apply H2|]. now destruct (last_value k l).
Qed.
Lemma last_wins_eq l m1 m2 : last_wins l m1 -> last_wins l m2 -> params_eq m1 m2.
Proof. intros [_ H1] [_ H2] k. now rewrite H1, H2. Qed.

Lemma params_sound i r m : parse_parameters i = Done r m ->
  exists s l, i = s ++ r /\ (r <> [] -> param_list_text s l) /\ m = params_collect l.
Proof.
  intros H. unfold parse_parameters, pmap in H. inv_bind H. injection H as <- <-.
  apply many_param_sound in E. destruct E as (ss & -> & H). exists (concat ss), y.
  split; [reflexivity|]. split; [|reflexivity]. intros Hr. destruct H as [H|H]; [|congruence].
  exists ss. auto.
Qed.
Lemma params_complete s l w r : param_list_text s l -> blanks w ->
  parse_parameters (s ++ w ++ CRLF ++ r) = Done (w ++ CRLF ++ r) (params_collect l).
Proof.
  intros (ss & Hss & ->) Hw. unfold parse_parameters, pmap, many0.
  assert (Hst : forall w u, w <> [] -> blanks w -> stops paramc (w ++ u)).
  { intros w' u Hn Hb. destruct w' as [|c w']; [congruence|]. cbn. inversion Hb; subst.
    apply blank_in in H1. destruct H1 as [-> | ->]; reflexivity. }
  rewrite (many0_loop_complete parameter param_text _ ss l (w ++ CRLF ++ r)); auto.
  - intros s x u Hs [->|(s' & x' & u' & Hs' & ->)].
    + apply parameter_app; [exact Hs|]. destruct w as [|c w]; [reflexivity|]. apply Hst; [discriminate|exact Hw].
    + apply parameter_app; [exact Hs|]. destruct Hs' as [w' k Hn Hb Hk|w' k v Hn Hb Hk Hv Hvs];
        rewrite <- app_assoc; now apply Hst.
  - intros s x Hs. destruct Hs as [w' k Hn Hb Hk|w' k v Hn Hb Hk Hv Hvs]; destruct w'; try congruence; discriminate.
  - left. now apply parameter_end_r.
Qed.
Lemma params_fuel : pfuel parse_parameters.
Proof.
  intros i. apply bind_fuel; [|intros; discriminate].
  apply (many0_loop_fuel _ _ parameter_weak parameter_fuel). lia.
Qed.
Lemma params_term : pterm parse_parameters.
Proof.
  intros i Hi. apply bind_inc; [|intros; discriminate].
  apply (many0_loop_inc _ _ parameter_weak parameter_term); auto.
Qed.
Lemma params_rest_term i r x : term i -> parse_parameters i = Done r x -> term r.
Proof.
  intros Hi H. unfold parse_parameters, pmap in H. inv_bind H. injection H as <- <-.
  apply (many0_loop_sound _ _ parameter_weak) in E. destruct E as (ss & -> & Hss).
  eapply term_suffix; [exact Hi|]. clear -Hss. induction Hss; cbn; [apply okend_nil|].
  now apply okend_app2.
Qed.

(** ** Verbs *)
Fixpoint mismatch (v t : bytes) : bool :=
  match v, t with
  | a :: v', b :: t' => negb (eq_no_case a b) || mismatch v' t'
  | _, _ => false
  end.
Lemma eq_no_case_upper a a' b : upper a = upper a' -> eq_no_case a b = eq_no_case a' b.
Proof.
  intros H. destruct (eq_no_case a b) eqn:E1, (eq_no_case a' b) eqn:E2; auto.
  - apply eq_no_case_spec in E1. rewrite H in E1. apply eq_no_case_spec in E1. congruence.
  - apply eq_no_case_spec in E2. rewrite <- H in E2. apply eq_no_case_spec in E2. congruence.
Qed.
Lemma verb_Err verb t : mismatch verb t = true -> forall v r, same_ci v verb -> tag_no_case t (v ++ r) = Err.
Proof.
  intros Hm v r Hv. unfold tag_no_case, tag_with.
  enough (H : compare_with eq_no_case (v ++ r) t = CmpError) by now rewrite H.
  revert v t Hm Hv. induction verb as [|a verb IH]; intros v t Hm Hv; [discriminate|].
  destruct t as [|b t]; [discriminate|]. destruct v as [|a' v]; [discriminate|].
  unfold same_ci in Hv. cbn in Hv. injection Hv as Ha Hv. cbn [app compare_with].
  rewrite (eq_no_case_upper a' a b Ha). cbn in Hm. destruct (eq_no_case a b); [|reflexivity].
  now apply IH.
Qed.
Lemma verb_head verb v : same_ci v verb -> forall c verb', verb = c :: verb' -> is_letter c = true ->
  exists c' v', v = c' :: v' /\ upper c' = upper c.
Proof.
  intros H c verb' -> _. destruct v as [|c' v]; [discriminate|]. unfold same_ci in H. cbn in H.
  injection H as H _. eauto.
Qed.
Lemma verb_stops_blank verb v r : same_ci v verb ->
  match verb with c :: _ => is_letter c | [] => false end = true ->
  stops (fun c => mem c spaces) (v ++ r).
Proof.
  intros H Hl. destruct verb as [|c verb]; [discriminate|].
  destruct (verb_head _ _ H c verb eq_refl Hl) as (c' & v' & -> & Hc). cbn [app stops].
  apply mem_not_In. intros C. apply blank_in in C.
  assert (Hu : upper c' = c') by (destruct C as [-> | ->]; reflexivity). rewrite Hu in Hc.
  clear -C Hl Hc. unfold is_letter, in_range in Hl. unfold upper in Hc.
  assert (c' = 32 \/ c' = 9)%N as Hv by (unfold blank, SP, TAB in C; exact C).
  rewrite orb_true_iff, !andb_true_iff, !N.leb_le in Hl.
  destruct ((97 <=? c)%N && (c <=? 122)%N) eqn:E.
  - rewrite andb_true_iff, !N.leb_le in E. lia.
  - lia.
Qed.
Lemma upper_CR b : upper b = CR -> b = CR.
Proof.
  unfold upper. destruct ((97 <=? b)%N && (b <=? 122)%N) eqn:E; [|auto].
  apply andb_true_iff in E. destruct E as [E1 E2]. apply N.leb_le in E1, E2. unfold CR. lia.
Qed.
Lemma verb_okend v verb : same_ci v verb -> forallb (fun c => negb (upper c =? CR)%N && negb (upper c =? LF)%N) verb = true ->
  okend v.
Proof.
  intros H Hv. apply okend_forall. revert verb H Hv.
  induction v as [|c v IH]; intros [|d verb] H Hv; try discriminate; [constructor|].
  unfold same_ci in H. cbn in H, Hv. injection H as H1 H2. apply andb_true_iff in Hv. destruct Hv as [Hd Hv].
  constructor; [|now apply (IH verb)]. rewrite <- H1 in Hd. apply andb_true_iff in Hd. destruct Hd as [E1 E2].
  apply negb_true_iff, N.eqb_neq in E1, E2. split; intros ->; [now apply E1|now apply E2].
Qed.
Lemma tag_no_case_rest_term t i r x : term i -> tag_no_case t i = Done r x ->
  forallb (fun c => negb (upper c =? CR)%N && negb (upper c =? LF)%N) t = true -> term r.
Proof.
  intros Hi H Ht. apply tag_no_case_sound in H. destruct H as (s & -> & -> & Hs).
  eapply term_suffix; [exact Hi|]. now apply (verb_okend _ t).
Qed.
Lemma tag_no_case_lf t : forallb (fun c => negb (upper c =? CR)%N && negb (upper c =? LF)%N) t = true -> ~ In LF t.
Proof.
  intros H C. rewrite forallb_forall in H. specialize (H LF C). discriminate.
Qed.
Lemma bind_Err {A B} (m : iresult A) (f : bytes -> A -> iresult B) : m = Err -> bind m f = Err.
Proof. now intros ->. Qed.

(** ** Command parsers *)
Definition verb_ok (verb : bytes) : bool :=
  forallb (fun c => negb (upper c =? CR)%N && negb (upper c =? LF)%N) verb
  && match verb with c :: _ => is_letter c | [] => false end.

Section Verb.
Variable verb : bytes.
Hypothesis Hok : verb_ok verb = true.
Let Hcr : forallb (fun c => negb (upper c =? CR)%N && negb (upper c =? LF)%N) verb = true.
Proof. apply andb_true_iff in Hok. apply Hok. Qed.
Let Hlet : match verb with c :: _ => is_letter c | [] => false end = true.
Proof. apply andb_true_iff in Hok. apply Hok. Qed.

Lemma bare_sound c i r x : bare_command verb c i = Done r x ->
  exists v w, i = (v ++ w ++ CRLF) ++ r /\ same_ci v verb /\ blanks w /\ x = c.
Proof.
  intros H. unfold bare_command in H. inv_bind H. apply tag_no_case_sound in E. destruct E as (s & -> & -> & Hs).
  inv_bind H. apply eat_spaces_sound in E. destruct E as (-> & Hw & _).
  inv_bind H. apply tag_Done in E. destruct E as [-> _]. injection H as <- <-.
  exists y, y0. repeat split; auto. now rewrite <- !app_assoc.
Qed.
Lemma bare_complete c v w r : same_ci v verb -> blanks w ->
  bare_command verb c ((v ++ w ++ CRLF) ++ r) = Done r c.
Proof.
  intros Hv Hw. unfold bare_command. rewrite <- !app_assoc, tag_no_case_app by exact Hv. cbn [bind].
  rewrite eat_spaces_app; [|exact Hw|reflexivity]. cbn [bind]. unfold crlf. rewrite tag_app. reflexivity.
Qed.
Lemma bare_fuel c : pfuel (bare_command verb c).
Proof.
  intros i. apply bind_fuel; [apply tag_no_case_fuel|]. intros. apply bind_fuel; [apply eat_spaces_fuel|].
  intros. apply bind_fuel; [apply tag_fuel|]. intros; discriminate.
Qed.
Lemma bare_term c : pterm (bare_command verb c).
Proof.
  intros i Hi. apply bind_inc; [apply tag_no_case_term; [now apply tag_no_case_lf|exact Hi]|].
  intros i1 x1 E. apply tag_no_case_rest_term in E; auto.
  apply bind_inc; [apply eat_spaces_not_inc|]. intros i2 x2 E2. apply eat_spaces_term in E2; [|exact E].
  apply bind_inc; [now apply crlf_term|]. intros; discriminate.
Qed.

Lemma hello_sound mk i r x : hello_command verb mk i = Done r x ->
  exists w0 v w1 t d w2, i = (w0 ++ v ++ w1 ++ t ++ w2 ++ CRLF) ++ r /\ blanks w0 /\ same_ci v verb
    /\ blanks w1 /\ domain_text t d /\ blanks w2 /\ x = mk d.
Proof.
  intros H. unfold hello_command in H.
  inv_bind H. apply eat_spaces_sound in E. destruct E as (-> & Hw0 & _).
  inv_bind H. apply tag_no_case_sound in E. destruct E as (s & -> & -> & Hs).
  inv_bind H. apply eat_spaces_sound in E. destruct E as (-> & Hw1 & _).
  inv_bind H. apply hostname_sound in E. destruct E as (t & -> & Ht).
  inv_bind H. apply eat_spaces_sound in E. destruct E as (-> & Hw2 & _).
  inv_bind H. apply tag_Done in E. destruct E as [-> _]. injection H as <- <-.
  exists y, y0, y1, t, y2, y3. repeat split; auto. now rewrite <- !app_assoc.
Qed.
Lemma blank_follow w r : blanks w -> stops hostc (w ++ CRLF ++ r).
Proof.
  intros H. destruct w as [|c w]; [reflexivity|]. inversion H; subst. apply blank_in in H2.
  destruct H2 as [-> | ->]; reflexivity.
Qed.
Lemma domain_text_stops t d r : domain_text t d -> stops (fun c => mem c spaces) (t ++ r).
Proof.
  intros [s Hs|x a Ha|x a Ha]; [|reflexivity|reflexivity].
  destruct (host_text_head s Hs) as (c & s' & -> & Hc). cbn [app stops]. apply mem_not_In. intros C.
  apply blank_in in C. destruct C as [-> | ->].
  - apply (in_neq _ SP _ Hc); reflexivity.
  - apply (in_neq _ TAB _ Hc); reflexivity.
Qed.
Lemma hello_complete mk w0 v w1 t d w2 r : blanks w0 -> same_ci v verb -> blanks w1 ->
  domain_text t d -> blanks w2 ->
  hello_command verb mk ((w0 ++ v ++ w1 ++ t ++ w2 ++ CRLF) ++ r) = Done r (mk d).
Proof.
  intros Hw0 Hv Hw1 Ht Hw2. unfold hello_command. rewrite <- !app_assoc.
  rewrite eat_spaces_app; [|exact Hw0|now apply (verb_stops_blank verb)]. cbn [bind].
  rewrite tag_no_case_app by exact Hv. cbn [bind].
  rewrite eat_spaces_app; [|exact Hw1|now apply (domain_text_stops t d)]. cbn [bind].
  rewrite (hostname_complete t _ d Ht) by now apply blank_follow. cbn [bind].
  rewrite eat_spaces_app; [|exact Hw2|reflexivity]. cbn [bind]. rewrite tag_app. reflexivity.
Qed.
Lemma hello_fuel mk : pfuel (hello_command verb mk).
Proof.
  intros i. apply bind_fuel; [apply eat_spaces_fuel|]. intros.
  apply bind_fuel; [apply tag_no_case_fuel|]. intros. apply bind_fuel; [apply eat_spaces_fuel|]. intros.
  apply bind_fuel; [apply hostname_fuel|]. intros. apply bind_fuel; [apply eat_spaces_fuel|]. intros.
  apply bind_fuel; [apply tag_fuel|]. intros; discriminate.
Qed.
Lemma hello_term mk : pterm (hello_command verb mk).
Proof.
  intros i Hi. apply bind_inc; [apply eat_spaces_not_inc|].
  intros i0 x0 E0. apply eat_spaces_term in E0; [|exact Hi].
  apply bind_inc; [apply tag_no_case_term; [now apply tag_no_case_lf|exact E0]|].
  intros i1 x1 E. apply tag_no_case_rest_term in E; auto.
  apply bind_inc; [apply eat_spaces_not_inc|]. intros i2 x2 E2. apply eat_spaces_term in E2; [|exact E].
  apply bind_inc; [now apply hostname_term|]. intros i3 x3 E3. apply hostname_sound in E3.
  destruct E3 as (t & -> & Ht). apply term_suffix in E2; [|now apply domain_text_okend in Ht].
  apply bind_inc; [apply eat_spaces_not_inc|]. intros i4 x4 E4. apply eat_spaces_term in E4; [|exact E2].
  apply bind_inc; [now apply crlf_term|]. intros; discriminate.
Qed.

Lemma string_sound mk i r x : string_command verb mk i = Done r x ->
  exists v c s, i = (v ++ [c] ++ s ++ CRLF) ++ r /\ same_ci v verb /\ blank c /\ is_line s /\ x = mk s.
Proof.
  intros H. unfold string_command in H.
  inv_bind H. apply tag_no_case_sound in E. destruct E as (s & -> & -> & Hs).
  inv_bind H. apply one_of_sound in E. destruct E as (s & -> & -> & Hc).
  inv_bind H. apply take_until_crlf_sound in E. destruct E as (-> & Hl & b & ->).
  rewrite tag_app in H. cbn [bind] in H. injection H as <- <-.
  exists y, y0, y1. repeat split; auto; [now rewrite <- !app_assoc|now apply blank_in].
Qed.
Lemma string_complete mk v c s r : same_ci v verb -> blank c -> is_line s ->
  string_command verb mk ((v ++ [c] ++ s ++ CRLF) ++ r) = Done r (mk s).
Proof.
  intros Hv Hc Hs. unfold string_command. rewrite <- !app_assoc.
  rewrite tag_no_case_app by exact Hv. cbn [bind app]. apply blank_in in Hc.
  rewrite one_of_app by exact Hc. cbn [bind].
  rewrite (take_until_crlf_app s r) by exact Hs. cbn [bind]. rewrite tag_app. reflexivity.
Qed.
Lemma string_fuel mk : pfuel (string_command verb mk).
Proof.
  intros i. apply bind_fuel; [apply tag_no_case_fuel|]. intros.
  apply bind_fuel; [apply one_of_fuel|]. intros.
  apply bind_fuel; [apply take_until_fuel|]. intros.
  apply bind_fuel; [apply tag_fuel|]. intros; discriminate.
Qed.
Lemma string_term mk : pterm (string_command verb mk).
Proof.
  intros i Hi. apply bind_inc; [apply tag_no_case_term; [now apply tag_no_case_lf|exact Hi]|].
  intros i1 x1 E. apply tag_no_case_rest_term in E; auto.
  apply bind_inc; [now apply one_of_term|]. intros i2 x2 E2. apply one_of_sound in E2.
  destruct E2 as (s & -> & -> & Hc).
  assert (H2 : term i2) by (apply (term_cons x2); [exact E|neq_set Hc|neq_set Hc]).
  apply bind_inc; [now apply take_until_crlf_term|]. intros i3 x3 E3.
  apply take_until_crlf_sound in E3. destruct E3 as (-> & _ & b & ->).
  rewrite tag_app. discriminate.
Qed.

Lemma opt_string_sound mk i r x : opt_string_command verb mk i = Done r x ->
  exists v s arg, i = (v ++ s ++ CRLF) ++ r /\ same_ci v verb /\ opt_string_text s arg
    /\ is_line arg /\ x = mk arg.
Proof.
  intros H. unfold opt_string_command in H.
  inv_bind H. apply tag_no_case_sound in E. destruct E as (s & -> & -> & Hs).
  inv_bind H. apply opt_Done in E. destruct E as [(c & E & ->)|(E & -> & ->)].
  - apply one_of_sound in E. destruct E as (s & -> & -> & Hc).
    inv_bind H. apply take_until_crlf_sound in E. destruct E as (-> & Hl & b & ->).
    rewrite tag_app in H. cbn [bind] in H. injection H as <- <-.
    exists y, (c :: y0), y0. repeat split; auto; [rewrite <- !app_assoc; reflexivity|].
    left. exists c. split; [now apply blank_in|reflexivity].
  - inv_bind H. apply take_until_crlf_sound in E0. destruct E0 as (-> & Hl & b & ->).
    rewrite tag_app in H. cbn [bind] in H. injection H as <- <-.
    exists y, y0, y0. repeat split; auto; [now rewrite <- !app_assoc|].
    right. split; [reflexivity|]. intros c s' -> Hc. apply blank_in in Hc. cbn [app] in E.
    rewrite one_of_app in E by exact Hc. discriminate.
Qed.
Lemma opt_string_complete mk v s arg r : same_ci v verb -> opt_string_text s arg -> is_line arg ->
  opt_string_command verb mk ((v ++ s ++ CRLF) ++ r) = Done r (mk arg).
Proof.
  intros Hv Ho Hs. unfold opt_string_command. rewrite <- !app_assoc.
  rewrite tag_no_case_app by exact Hv. cbn [bind]. destruct Ho as [(c & Hc & ->)|[-> Hn]].
  - cbn [app]. apply blank_in in Hc. erewrite opt_some by (apply one_of_app; exact Hc). cbn [bind].
    rewrite (take_until_crlf_app arg r) by exact Hs. cbn [bind]. rewrite tag_app. reflexivity.
  - rewrite opt_none.
    + cbn [bind]. rewrite (take_until_crlf_app arg r) by exact Hs. cbn [bind]. rewrite tag_app. reflexivity.
    + destruct arg as [|c arg]; [reflexivity|]. cbn [app]. apply one_of_Err. intros C.
      apply blank_in in C. now apply (Hn c arg).
Qed.
Lemma opt_string_fuel mk : pfuel (opt_string_command verb mk).
Proof.
  intros i. apply bind_fuel; [apply tag_no_case_fuel|]. intros.
  apply bind_fuel; [apply opt_fuel, one_of_fuel|]. intros.
  apply bind_fuel; [apply take_until_fuel|]. intros.
  apply bind_fuel; [apply tag_fuel|]. intros; discriminate.
Qed.
Lemma opt_string_term mk : pterm (opt_string_command verb mk).
Proof.
  intros i Hi. apply bind_inc; [apply tag_no_case_term; [now apply tag_no_case_lf|exact Hi]|].
  intros i1 x1 E. apply tag_no_case_rest_term in E; auto.
  apply bind_inc; [apply opt_inc; now apply one_of_term|]. intros i2 x2 E2.
  assert (H2 : term i2).
  { apply opt_Done in E2. destruct E2 as [(c & E2 & ->)|(E2 & -> & ->)]; [|exact E].
    apply one_of_sound in E2. destruct E2 as (s & -> & -> & Hc).
    apply (term_cons c); [exact E|neq_set Hc|neq_set Hc]. }
  apply bind_inc; [now apply take_until_crlf_term|]. intros i3 x3 E3.
  apply take_until_crlf_sound in E3. destruct E3 as (-> & _ & b & ->).
  rewrite tag_app. discriminate.
Qed.

(** MAIL and RCPT have one shape: verb, blanks, path, parameters. *)
Definition path_command {A} (P : parser A) (mk : A -> parameters -> command) : parser command := fun i =>
  bind (tag_no_case verb i) (fun i _ =>
  bind (eat_spaces i) (fun i _ =>
  bind (P i) (fun i a =>
  bind (parse_parameters i) (fun i params =>
  bind (eat_spaces i) (fun i _ =>
  bind (crlf i) (fun i _ => Done i (mk a params))))))).
Context {A : Type} (P : parser A) (G : bytes -> A -> Prop) (mk : A -> parameters -> command).
Hypothesis HPs : psound P G.
Hypothesis HPc : forall s r a, G s a -> stops emailc r -> P (s ++ r) = Done r a.
Hypothesis HPf : pfuel P.
Hypothesis HPt : pterm P.
Hypothesis HGe : forall s a, G s a -> okend s.
Hypothesis HGh : forall s a, G s a -> exists c s', s = c :: s' /\ ~ In c spaces.

Lemma path_command_sound i r x : path_command P mk i = Done r x ->
  exists v w t a p l w2, i = (v ++ w ++ t ++ p ++ w2 ++ CRLF) ++ r /\ same_ci v verb /\ blanks w
    /\ G t a /\ param_list_text p l /\ blanks w2 /\ x = mk a (params_collect l).
Proof.
  intros H. unfold path_command in H.
  inv_bind H. apply tag_no_case_sound in E. destruct E as (s & -> & -> & Hs).
  inv_bind H. apply eat_spaces_sound in E. destruct E as (-> & Hw & _).
  inv_bind H. apply HPs in E. destruct E as (t & -> & Ht).
  inv_bind H. apply params_sound in E. destruct E as (p & l & -> & Hp & ->).
  inv_bind H. apply eat_spaces_sound in E. destruct E as (-> & Hw2 & _).
  inv_bind H. apply tag_Done in E. destruct E as [-> _]. injection H as <- <-.
  exists y, y0, t, y1, p, l, y2. split; [rewrite <- !app_assoc; reflexivity|].
  split; [exact Hs|]. split; [exact Hw|]. split; [exact Ht|]. split; [|split; [exact Hw2|reflexivity]].
  apply Hp. destruct y2; discriminate.
Qed.
Lemma path_command_complete v w t a p l w2 r : same_ci v verb -> blanks w -> G t a ->
  param_list_text p l -> blanks w2 ->
  path_command P mk ((v ++ w ++ t ++ p ++ w2 ++ CRLF) ++ r) = Done r (mk a (params_collect l)).
Proof.
  intros Hv Hw Ht Hp Hw2. unfold path_command. rewrite <- !app_assoc.
  rewrite tag_no_case_app by exact Hv. cbn [bind].
  rewrite eat_spaces_app; [|exact Hw|].
  2:{ destruct (HGh t a Ht) as (c & s' & -> & Hc). cbn [app stops]. now apply mem_not_In. }
  cbn [bind]. rewrite (HPc t _ a Ht).
  2:{ assert (Hst : forall w' u, w' <> [] -> blanks w' -> stops emailc (w' ++ u)).
      { intros w' u Hn Hb. destruct w' as [|c w']; [congruence|]. cbn. inversion Hb; subst.
        apply blank_in in H1. destruct H1 as [-> | ->]; reflexivity. }
      destruct Hp as (ss & Hss & ->). destruct Hss as [|s x ss xs Hs Hss].
      - cbn [concat app]. destruct w2; [reflexivity|]. apply Hst; [discriminate|assumption].
      - cbn [concat]. destruct Hs; rewrite <- !app_assoc; now apply Hst. }
  cbn [bind]. rewrite (params_complete p l w2 r Hp Hw2). cbn [bind].
  rewrite eat_spaces_app; [|exact Hw2|reflexivity]. cbn [bind]. unfold crlf. rewrite tag_app. reflexivity.
Qed.
Lemma path_command_fuel : pfuel (path_command P mk).
Proof.
  intros i. apply bind_fuel; [apply tag_no_case_fuel|]. intros. apply bind_fuel; [apply eat_spaces_fuel|]. intros.
  apply bind_fuel; [apply HPf|]. intros. apply bind_fuel; [apply params_fuel|]. intros.
  apply bind_fuel; [apply eat_spaces_fuel|]. intros. apply bind_fuel; [apply tag_fuel|]. intros; discriminate.
Qed.
Lemma path_command_term : pterm (path_command P mk).
Proof.
  intros i Hi. apply bind_inc; [apply tag_no_case_term; [now apply tag_no_case_lf|exact Hi]|].
  intros i1 x1 E. apply tag_no_case_rest_term in E; auto.
  apply bind_inc; [apply eat_spaces_not_inc|]. intros i2 x2 E2. apply eat_spaces_term in E2; [|exact E].
  apply bind_inc; [now apply HPt|]. intros i3 x3 E3. apply HPs in E3. destruct E3 as (t & -> & Ht).
  apply term_suffix in E2; [|now apply (HGe t x3)].
  apply bind_inc; [now apply params_term|]. intros i4 x4 E4. apply params_rest_term in E4; [|exact E2].
  apply bind_inc; [apply eat_spaces_not_inc|]. intros i5 x5 E5. apply eat_spaces_term in E5; [|exact E4].
  apply bind_inc; [now apply crlf_term|]. intros; discriminate.
Qed.
End Verb.

(** ** The reverse path *)
Inductive from_text : bytes -> option email -> Prop :=
| FT_null : from_text (s2b "<>") None
| FT_some t e : maybe_bracketed_text t e -> from_text t (Some e).
Lemma mail_from_sound : psound mail_from from_text.
Proof.
  intros i r x H. unfold mail_from in H. apply alt_Done in H. destruct H as [H|[_ H]];
    unfold pmap in H; inv_bind H; injection H as <- <-.
  - apply tag_Done in E. destruct E as [-> _]. exists (s2b "<>"). split; [reflexivity|constructor].
  - apply bpath_sound in E. destruct E as (s & -> & Hs). exists s. split; [reflexivity|]. now constructor.
Qed.
Lemma mail_from_complete s r a : from_text s a -> stops emailc r -> mail_from (s ++ r) = Done r a.
Proof.
  intros [|t e H] Hr; unfold mail_from.
  - apply alt_first. unfold pmap. rewrite tag_app. reflexivity.
  - rewrite alt_second.
    + unfold pmap. now rewrite (bpath_complete t r e H Hr).
    + destruct (bpath_text_head t e H) as (c & s' & -> & [(-> & d & s'' & -> & Hd)|Hc]); cbn [app];
        apply bind_Err; unfold tag, tag_with; cbn [compare_with s2b].
      * assert (Hn : (d =? 62)%N = false) by (apply N.eqb_neq; neq_set Hd).
        change (N_of_ascii "<") with LT. change (N_of_ascii ">") with GT.
        rewrite N.eqb_refl. cbn [compare_with]. change GT with 62%N. now rewrite Hn.
      * assert (Hn : (c =? LT)%N = false) by (apply N.eqb_neq; neq_set Hc).
        change (N_of_ascii "<") with LT. now rewrite Hn.
Qed.
Lemma mail_from_fuel : pfuel mail_from.
Proof.
  apply alt_fuel; intros i; (apply bind_fuel; [|intros; discriminate]); [apply tag_fuel|apply bpath_fuel].
Qed.
Lemma mail_from_term : pterm mail_from.
Proof.
  apply alt_term; intros i Hi; (apply bind_inc; [|intros; discriminate]).
  - apply tag_term; [notin|exact Hi].
  - now apply bpath_term.
Qed.
Lemma from_text_okend s a : from_text s a -> okend s.
Proof.
  intros [|t e H]; [|now apply bpath_text_okend in H].
  apply okend_forall. repeat (constructor; [split; discriminate|]). constructor.
Qed.
Lemma bpath_head_blank s e : maybe_bracketed_text s e -> exists c s', s = c :: s' /\ ~ In c spaces.
Proof.
  intros H. destruct (bpath_text_head s e H) as (c & s' & -> & Hc). exists c, s'. split; [reflexivity|].
  intros C. apply blank_in in C. destruct Hc as [(-> & _)|Hc]; [destruct C; discriminate|].
  destruct C as [-> | ->].
  - apply (in_neq _ SP _ Hc); reflexivity.
  - apply (in_neq _ TAB _ Hc); reflexivity.
Qed.
Lemma from_head_blank s a : from_text s a -> exists c s', s = c :: s' /\ ~ In c spaces.
Proof.
  intros [|t e H]; [|now apply (bpath_head_blank t e)]. do 2 eexists. split; [reflexivity|]. notin.
Qed.

(** ** The whole command parser *)
Lemma mail_is : command_mail_args = path_command (s2b "MAIL FROM:") mail_from Mail.
Proof. reflexivity. Qed.
Lemma rcpt_is : command_rcpt_args =
  path_command (s2b "RCPT TO:") address_in_maybe_bracketed_path Rcpt.
Proof. reflexivity. Qed.

Lemma command_sound : psound command_p command_text.
Proof.
  intros i r x H. unfold command_p in H.
  apply alt_Done in H. destruct H as [H|[_ H]].
  { apply bare_sound in H. destruct H as (v & w & -> & Hv & Hw & ->). eexists. split; [reflexivity|]. now constructor. }
  apply alt_Done in H. destruct H as [H|[_ H]].
  { apply hello_sound in H. destruct H as (w0 & v & w1 & t & d & w2 & -> & H0 & Hv & H1 & Ht & H2 & ->).
    eexists. split; [reflexivity|]. now constructor. }
  apply alt_Done in H. destruct H as [H|[_ H]].
  { apply string_sound in H. destruct H as (v & c & s & -> & Hv & Hc & Hs & ->).
    eexists. split; [reflexivity|]. now constructor. }
  apply alt_Done in H. destruct H as [H|[_ H]].
  { apply hello_sound in H. destruct H as (w0 & v & w1 & t & d & w2 & -> & H0 & Hv & H1 & Ht & H2 & ->).
    eexists. split; [reflexivity|]. now constructor. }
  apply alt_Done in H. destruct H as [H|[_ H]].
  { apply opt_string_sound in H. destruct H as (v & s & arg & -> & Hv & Ho & Hl & ->).
    eexists. split; [reflexivity|]. now constructor. }
  apply alt_Done in H. destruct H as [H|[_ H]].
  { rewrite mail_is in H. apply (path_command_sound _ _ _ _ mail_from_sound) in H.
    destruct H as (v & w & t & a & p & l & w2 & -> & Hv & Hw & Ht & Hp & Hw2 & ->).
    eexists. split; [reflexivity|]. destruct Ht; econstructor; eauto using collect_last_wins. }
  apply alt_Done in H. destruct H as [H|[_ H]].
  { apply opt_string_sound in H. destruct H as (v & s & arg & -> & Hv & Ho & Hl & ->).
    eexists. split; [reflexivity|]. now constructor. }
  apply alt_Done in H. destruct H as [H|[_ H]].
  { apply bare_sound in H. destruct H as (v & w & -> & Hv & Hw & ->). eexists. split; [reflexivity|]. now constructor. }
  apply alt_Done in H. destruct H as [H|[_ H]].
  { rewrite rcpt_is in H. apply (path_command_sound _ _ _ _ bpath_sound) in H.
    destruct H as (v & w & t & a & p & l & w2 & -> & Hv & Hw & Ht & Hp & Hw2 & ->).
    eexists. split; [reflexivity|]. econstructor; eauto using collect_last_wins. }
  apply alt_Done in H. destruct H as [H|[_ H]].
  { apply bare_sound in H. destruct H as (v & w & -> & Hv & Hw & ->). eexists. split; [reflexivity|]. now constructor. }
  { apply string_sound in H. destruct H as (v & c & s & -> & Hv & Hc & Hs & ->).
    eexists. split; [reflexivity|]. now constructor. }
Qed.

(** A parser that begins with verb [t] rejects a text that begins with another. *)
Lemma lead_Err verb t w v u : blanks w -> same_ci v verb -> mismatch verb t = true -> verb_ok t = true ->
  tag_no_case t (w ++ v ++ u) = Err.
Proof.
  intros Hw Hv Hm Ht. destruct w as [|c w]; [cbn [app]; now apply (verb_Err verb)|].
  cbn [app]. destruct t as [|a t]; [discriminate|]. unfold tag_no_case, tag_with. cbn [compare_with].
  inversion Hw as [|? ? Hc _]; subst. apply blank_in in Hc.
  assert (Hl : is_letter a = true). { apply andb_true_iff in Ht. apply Ht. }
  assert (Hlc : is_letter c = false) by (destruct Hc as [-> | ->]; reflexivity).
  assert (E : eq_no_case c a = false) by (unfold eq_no_case; rewrite Hl, Hlc; reflexivity).
  now rewrite E.
Qed.
Lemma hello_lead_Err verb t mk w v u : blanks w -> same_ci v verb -> verb_ok verb = true ->
  mismatch verb t = true -> hello_command t mk (w ++ v ++ u) = Err.
Proof.
  intros Hw Hv Hok Hm. unfold hello_command. rewrite eat_spaces_app; [|exact Hw|].
  - cbn [bind]. rewrite (verb_Err verb) by assumption. reflexivity.
  - apply (verb_stops_blank verb); [exact Hv|]. apply andb_true_iff in Hok. apply Hok.
Qed.
(** Skip the alternatives for the other verbs. *)
Ltac skip_alt verb :=
  repeat (rewrite alt_second by
    first [ unfold command_ehlo_args, command_helo_args;
            apply (hello_lead_Err verb); [assumption|assumption|reflexivity|reflexivity]
          | apply bind_Err; apply (lead_Err verb); [assumption|assumption|reflexivity|reflexivity] ]).

Lemma command_complete s r c : command_text s c ->
  exists c', command_p (s ++ r) = Done r c' /\ command_eq c c'.
Proof.
  intros H. unfold command_p. assert (Hnil : blanks []) by constructor.
  destruct H as [v w Hv Hw|v w Hv Hw|v w Hv Hw|w0 v w1 t d w2 H0 Hv H1 Ht H2|w0 v w1 t d w2 H0 Hv H1 Ht H2
    |v b s Hv Hb Hs|v b s Hv Hb Hs|v s arg Hv Ho Ha|v s arg Hv Ho Ha
    |v w t e p l m w2 Hv Hw Ht Hp Hl Hw2|v w p l m w2 Hv Hw Hp Hl Hw2|v w t e p l m w2 Hv Hw Ht Hp Hl Hw2].
  - exists Data. split; [|constructor]. apply alt_first. now apply bare_complete.
  - exists Quit. split; [|constructor]. rewrite <- app_assoc.
    change (v ++ (w ++ CRLF) ++ r) with ([] ++ v ++ (w ++ CRLF) ++ r). skip_alt (s2b "QUIT").
    apply alt_first. rewrite app_nil_l, app_assoc. now apply bare_complete.
  - exists Rset. split; [|constructor]. rewrite <- app_assoc.
    change (v ++ (w ++ CRLF) ++ r) with ([] ++ v ++ (w ++ CRLF) ++ r). skip_alt (s2b "RSET").
    apply alt_first. rewrite app_nil_l, app_assoc. now apply bare_complete.
  - exists (Ehlo d). split; [|constructor]. rewrite <- (app_assoc w0), <- (app_assoc v). skip_alt (s2b "EHLO").
    apply alt_first. rewrite (app_assoc v), (app_assoc w0). now apply hello_complete.
  - exists (Helo d). split; [|constructor]. rewrite <- (app_assoc w0), <- (app_assoc v). skip_alt (s2b "HELO").
    apply alt_first. rewrite (app_assoc v), (app_assoc w0). now apply hello_complete.
  - exists (Expn s). split; [|constructor]. rewrite <- app_assoc.
    change (v ++ ([b] ++ s ++ CRLF) ++ r) with ([] ++ v ++ ([b] ++ s ++ CRLF) ++ r). skip_alt (s2b "EXPN").
    apply alt_first. rewrite app_nil_l, app_assoc. now apply string_complete.
  - exists (Vrfy s). split; [|constructor]. rewrite <- app_assoc.
    change (v ++ ([b] ++ s ++ CRLF) ++ r) with ([] ++ v ++ ([b] ++ s ++ CRLF) ++ r). skip_alt (s2b "VRFY").
    rewrite app_nil_l, app_assoc. now apply string_complete.
  - exists (Help arg). split; [|constructor]. rewrite <- app_assoc.
    change (v ++ (s ++ CRLF) ++ r) with ([] ++ v ++ (s ++ CRLF) ++ r). skip_alt (s2b "HELP").
    apply alt_first. rewrite app_nil_l, app_assoc. now apply opt_string_complete.
  - exists (Noop arg). split; [|constructor]. rewrite <- app_assoc.
    change (v ++ (s ++ CRLF) ++ r) with ([] ++ v ++ (s ++ CRLF) ++ r). skip_alt (s2b "NOOP").
    apply alt_first. rewrite app_nil_l, app_assoc. now apply opt_string_complete.
  - exists (Mail (Some e) (params_collect l)).
    split; [|constructor; eapply last_wins_eq; [exact Hl|apply collect_last_wins]]. rewrite <- app_assoc.
    change (v ++ (w ++ t ++ p ++ w2 ++ CRLF) ++ r) with ([] ++ v ++ (w ++ t ++ p ++ w2 ++ CRLF) ++ r).
    skip_alt (s2b "MAIL FROM:"). apply alt_first. rewrite app_nil_l, app_assoc, mail_is.
    apply (path_command_complete _ mail_from from_text Mail mail_from_complete from_head_blank); auto.
    now constructor.
  - exists (Mail None (params_collect l)).
    split; [|constructor; eapply last_wins_eq; [exact Hl|apply collect_last_wins]]. rewrite <- app_assoc.
    change (v ++ (w ++ s2b "<>" ++ p ++ w2 ++ CRLF) ++ r) with ([] ++ v ++ (w ++ s2b "<>" ++ p ++ w2 ++ CRLF) ++ r).
    skip_alt (s2b "MAIL FROM:"). apply alt_first. rewrite app_nil_l, app_assoc, mail_is.
    apply (path_command_complete _ mail_from from_text Mail mail_from_complete from_head_blank); auto.
    constructor.
  - exists (Rcpt e (params_collect l)).
    split; [|constructor; eapply last_wins_eq; [exact Hl|apply collect_last_wins]]. rewrite <- app_assoc.
    change (v ++ (w ++ t ++ p ++ w2 ++ CRLF) ++ r) with ([] ++ v ++ (w ++ t ++ p ++ w2 ++ CRLF) ++ r).
    skip_alt (s2b "RCPT TO:"). apply alt_first. rewrite app_nil_l, app_assoc, rcpt_is.
    apply (path_command_complete _ _ maybe_bracketed_text Rcpt bpath_complete bpath_head_blank); auto.
Qed.
Lemma command_fuel : pfuel command_p.
Proof.
  unfold command_p. rewrite mail_is, rcpt_is.
  repeat apply alt_fuel; first [apply bare_fuel|apply hello_fuel|apply string_fuel|apply opt_string_fuel
    |apply path_command_fuel; [apply mail_from_fuel]|apply path_command_fuel; [apply bpath_fuel]].
Qed.
Lemma command_term : pterm command_p.
Proof.
  unfold command_p. rewrite mail_is, rcpt_is.
  apply alt_term; [now apply bare_term|].
  apply alt_term; [now apply hello_term|].
  apply alt_term; [now apply string_term|].
  apply alt_term; [now apply hello_term|].
  apply alt_term; [now apply opt_string_term|].
  apply alt_term; [now apply (path_command_term (s2b "MAIL FROM:") eq_refl _ from_text Mail mail_from_sound mail_from_term from_text_okend)|].
  apply alt_term; [now apply opt_string_term|].
  apply alt_term; [now apply bare_term|].
  apply alt_term; [now apply (path_command_term (s2b "RCPT TO:") eq_refl _ maybe_bracketed_text Rcpt bpath_sound bpath_term bpath_text_okend)|].
  apply alt_term; [now apply bare_term|now apply string_term].
Qed.
