(** The parsers of domains, addresses and parameters decide the grammar. *)
From Verif Require Import Bytes Nom Ip Message SpecData SpecGrammar DataLines NomLemmas IpProofs IpText.

(** ** Character sets *)
Definition hostc (c : N) : bool := mem c alnumdash || (c =? DOT)%N.
Definition atomc (c : N) : bool := mem c atext || (c =? DOT)%N.
Definition AT : N := 64%N.
Definition emailc (c : N) : bool := atomc c || (c =? AT)%N.
Definition EQU : N := 61%N.
Definition paramc (c : N) : bool := mem c graph_except_equ || (c =? EQU)%N.

Lemma set_incl_ok a b : forallb (fun c => mem c b) a = true -> forall c, In c a -> In c b.
Proof. intros H c Hc. rewrite forallb_forall in H. apply mem_In. now apply H. Qed.
Lemma not_in_ok c b : mem c b = false -> ~ In c b.
Proof. apply mem_not_In. Qed.
Ltac notin := apply not_in_ok; vm_compute; reflexivity.

Lemma in_neq c d set : In c set -> mem d set = false -> c <> d.
Proof. intros H1 H2 ->. apply mem_not_In in H2. auto. Qed.
Ltac neq_set H := apply (in_neq _ _ _ H); vm_compute; reflexivity.

Lemma over_set_okend set s : mem CR set = false -> mem LF set = false -> over_set set s -> okend s.
Proof.
  intros H1 H2 H. apply okend_forall. eapply Forall_impl; [|exact H]. cbn. intros c Hc.
  split; eapply in_neq; eauto.
Qed.
Lemma over_set_incl a b s : forallb (fun c => mem c b) a = true -> over_set a s -> over_set b s.
Proof. intros H. apply Forall_impl. intros c. now apply set_incl_ok. Qed.
Lemma stops_impl (p q : N -> bool) r : (forall c, q c = true -> p c = true) -> stops p r -> stops q r.
Proof.
  intros H. destruct r as [|c r]; [auto|]. cbn. intros E. specialize (H c).
  destruct (q c); [|reflexivity]. rewrite H in E; congruence.
Qed.
Lemma mem_impl a b c : forallb (fun c => mem c b) a = true -> mem c a = true -> mem c b = true.
Proof. intros H E. apply mem_In in E. apply mem_In. now apply (set_incl_ok a b H). Qed.

(** The sets of the code are those of the grammar. *)
Lemma alnum_char c : In c alnum <-> let_dig c.
Proof.
  unfold let_dig, letter. split.
  - intros H. vm_compute in H. repeat (destruct H as [<-|H]; [lia|]). destruct H.
  - intros H. apply mem_In. assert (L : (c < 256)%N) by lia. revert H.
    assert (K : forallb (fun x => implb ((65 <=? x) && (x <=? 90) || (97 <=? x) && (x <=? 122) || (48 <=? x) && (x <=? 57))%N (mem x alnum)) (map N.of_nat (seq 0 256)) = true) by (vm_compute; reflexivity).
    rewrite forallb_forall in K. specialize (K c). intros H.
    assert (B : ((65 <=? c) && (c <=? 90) || (97 <=? c) && (c <=? 122) || (48 <=? c) && (c <=? 57))%N = true).
    { rewrite !orb_true_iff, !andb_true_iff, !N.leb_le. tauto. }
    rewrite B in K. apply K. apply in_map_iff. exists (N.to_nat c). split; [apply N2Nat.id|]. apply in_seq. lia.
Qed.
Lemma alnumdash_char c : In c alnumdash <-> let_dig c \/ c = 45%N.
Proof.
  unfold alnumdash. rewrite in_app_iff, alnum_char. cbn [In s2b]. change (N_of_ascii "-") with 45%N. intuition congruence.
Qed.
Lemma atext_char c : In c atext <-> atom_char c.
Proof. unfold atext, atom_char. now rewrite in_app_iff, alnum_char. Qed.
Lemma gee_char c : In c graph_except_equ <-> value_char c.
Proof.
  unfold value_char. split.
  - intros H. vm_compute in H. repeat (destruct H as [<-|H]; [split; [lia|discriminate]|]). destruct H.
  - intros [H1 H2]. apply mem_In.
    assert (K : forallb (fun x => implb ((33 <=? x) && (x <=? 126) && negb (x =? 61))%N (mem x graph_except_equ)) (map N.of_nat (seq 0 256)) = true) by (vm_compute; reflexivity).
    rewrite forallb_forall in K. specialize (K c).
    assert (B : ((33 <=? c) && (c <=? 126) && negb (c =? 61))%N = true).
    { rewrite !andb_true_iff, negb_true_iff, N.eqb_neq, !N.leb_le. lia. }
    rewrite B in K. apply K. apply in_map_iff. exists (N.to_nat c). split; [apply N2Nat.id|]. apply in_seq. lia.
Qed.
Lemma over_atext s : Forall atom_char s <-> over_set atext s.
Proof. unfold over_set. split; apply Forall_impl; intros; now apply atext_char. Qed.
Lemma over_gee s : Forall value_char s <-> over_set graph_except_equ s.
Proof. unfold over_set. split; apply Forall_impl; intros; now apply gee_char. Qed.
Lemma label_text_iff s : label_text s <-> exists c s', s = c :: s' /\ In c alnum /\ over_set alnumdash s'.
Proof.
  unfold label_text, over_set. split; intros (c & s' & E & H1 & H2); exists c, s'; (split; [exact E|]); (split; [now apply alnum_char|]);
    revert H2; apply Forall_impl; intros; now apply alnumdash_char.
Qed.

(** ** Labels *)
Lemma label_sound : psound label (fun s _ => label_text s).
Proof.
  intros i r x H. unfold label, preceded in H. inv_bind H.
  apply one_of_sound in E. destruct E as (s & -> & -> & Hc).
  apply opt_Done in H. destruct H as [(z & H & ->)|(H & -> & ->)].
  - apply is_a_sound in H. destruct H as (-> & Hz & _). exists (y :: z).
    split; [reflexivity|]. apply label_text_iff. exists y, z. auto.
  - exists [y]. split; [reflexivity|]. apply label_text_iff. exists y, []. repeat split; auto. constructor.
Qed.
Lemma label_complete s r : label_text s -> stops (fun c => mem c alnumdash) r ->
  exists x, label (s ++ r) = Done r x.
Proof.
  intros H Hr. apply label_text_iff in H. destruct H as (c & s' & -> & Hc & Hs). unfold label, preceded. cbn [app].
  rewrite one_of_app by exact Hc. cbn [bind].
  destruct s' as [|d s'].
  - cbn [app]. destruct r as [|e r]; [eexists; reflexivity|].
    rewrite opt_none; [eauto|]. cbn in Hr. apply is_a_Err. now apply mem_not_In.
  - erewrite opt_some; [eauto|]. apply is_a_app; auto. discriminate.
Qed.
Lemma label_fuel : pfuel label.
Proof.
  intros i. apply bind_fuel; [apply one_of_fuel|]. intros. apply opt_fuel, is_a_fuel.
Qed.
Lemma label_term : pterm label.
Proof.
  intros i Hi. apply bind_inc; [now apply one_of_term|]. intros. apply opt_inc, is_a_not_inc.
Qed.
Lemma label_Err c r : ~ In c alnum -> label (c :: r) = Err.
Proof. intros H. unfold label, preceded. now rewrite one_of_Err. Qed.
Lemma label_text_set s : label_text s -> over_set alnumdash s /\ s <> [].
Proof.
  intros H. apply label_text_iff in H. destruct H as (c & s' & -> & Hc & Hs). split; [|discriminate]. constructor; [|exact Hs].
  revert c Hc. apply set_incl_ok. reflexivity.
Qed.

(** ** Host names *)
Definition host_list : parser (list (option bytes)) :=
  separated_nonempty_list_complete (tag (s2b ".")) label.
Lemma dot_sep_sound : psound (complete (tag (s2b "."))) (fun s _ => s = [DOT]).
Proof.
  apply complete_sound. intros i r x H. apply tag_Done in H. destruct H as [-> ->].
  exists (s2b "."). auto.
Qed.
Lemma dot_sep_app u : exists y, complete (tag (s2b ".")) (DOT :: u) = Done u y.
Proof. eexists. apply complete_Done. apply (tag_app [DOT]). Qed.
Lemma dot_sep_Err r : stops (fun c => (c =? DOT)%N) r -> complete (tag (s2b ".")) r = Err.
Proof.
  destruct r as [|c r]; [reflexivity|]. cbn [stops]. intros H. unfold complete.
  change (s2b ".") with [DOT]. now rewrite tag_Err.
Qed.
Lemma Forall2_fst {A B} (T : A -> Prop) (l : list A) (l' : list B) :
  Forall2 (fun a _ => T a) l l' -> Forall T l.
Proof. induction 1; constructor; auto. Qed.

Lemma host_list_sound : psound host_list (fun s _ => host_text s).
Proof.
  intros i r x H.
  pose proof (snl_sound _ _ DOT _ dot_sep_sound (complete_sound _ _ label_sound)) as P.
  apply P in H. destruct H as (s & -> & t & ss & -> & Hall). eexists. split; [reflexivity|].
  exists (t :: ss). split; [discriminate|]. split; [eapply Forall2_fst; exact Hall|].
  symmetry. apply intercalate_cons.
Qed.
Lemma host_list_complete s r : host_text s -> stops hostc r -> exists x, host_list (s ++ r) = Done r x.
Proof.
  intros (ls & Hne & Hls & ->) Hr. destruct ls as [|t ss]; [congruence|].
  change (s2b ".") with [DOT]. rewrite intercalate_cons.
  apply (snl_complete _ _ DOT (stops (fun c => mem c alnumdash)) label_text).
  - apply dot_sep_app.
  - intros s u Hs Hu. destruct (label_complete s u Hs Hu) as [x Hx]. exists x. now apply complete_Done.
  - intros s Hs. now apply label_text_set.
  - reflexivity.
  - eapply stops_impl; [|exact Hr]. intros c. unfold hostc. intros ->. reflexivity.
  - apply dot_sep_Err. eapply stops_impl; [|exact Hr]. intros c. unfold hostc. intros ->.
    apply orb_true_r.
  - exact Hls.
Qed.
Lemma host_list_fuel : pfuel host_list.
Proof.
  apply (snl_fuel _ _ DOT (fun s _ => label_text s)); auto using dot_sep_sound, complete_fuel, tag_fuel, label_fuel.
  apply complete_sound, label_sound.
Qed.
Lemma host_list_not_inc i : host_list i <> Incomplete.
Proof. apply snl_never_inc; intros; apply complete_not_inc. Qed.
Lemma host_list_Err c r : ~ In c alnum -> host_list (c :: r) = Err.
Proof.
  intros H. apply snl_Err. unfold complete. now rewrite label_Err.
Qed.
Lemma intercalate_set set sep ls : over_set set sep -> Forall (over_set set) ls ->
  over_set set (intercalate sep ls).
Proof.
  intros Hsep H. induction H as [|l ls Hl Hls IH]; [constructor|].
  cbn [intercalate]. destruct ls as [|l2 ls]; [exact Hl|].
  unfold over_set in *. rewrite !Forall_app. auto.
Qed.
Definition hostset : bytes := alnumdash ++ [DOT].
Lemma host_text_set s : host_text s -> over_set hostset s.
Proof.
  intros (ls & _ & Hls & ->). apply intercalate_set.
  - constructor; [|constructor]. apply mem_In. reflexivity.
  - eapply Forall_impl; [|exact Hls]. intros l Hl. apply label_text_set in Hl.
    eapply over_set_incl; [|apply Hl]. reflexivity.
Qed.
Lemma host_text_head s : host_text s -> exists c s', s = c :: s' /\ In c alnum.
Proof.
  intros (ls & Hne & Hls & ->). destruct Hls as [|l ls (c & l' & -> & Hc & _) _]; [congruence|].
  apply alnum_char in Hc. destruct ls; cbn; eauto.
Qed.

(** ** Domains *)
Lemma hostname_host_sound : psound hostname_host (fun s d => host_text s /\ d = Host s).
Proof.
  intros i r x H. unfold hostname_host, pmap in H. inv_bind H. injection H as <- <-.
  apply (recognize_sound _ _ host_list_sound) in E. destruct E as (s & -> & -> & _ & H).
  exists y. auto.
Qed.
Definition close_bracket : N := 93%N.
Lemma v6_sound : psound hostname_v6 domain_text.
Proof.
  intros i r x H. unfold hostname_v6, map_res, preceded in H. inv_bind H. inv_bind E.
  apply tag_Done in E0. destruct E0 as [-> _].
  apply (take_until_and_consume_sound close_bracket) in E. destruct E as [-> Hy].
  destruct (ipv6_from_str y) as [a|] eqn:Ea; [|discriminate]. injection H as <- <-.
  exists (s2b "[IPv6:" ++ y ++ s2b "]"). split; [now rewrite <- !app_assoc|]. constructor. now apply ipv6_parses_text.
Qed.
Lemma v4_sound : psound hostname_v4 domain_text.
Proof.
  intros i r x H. unfold hostname_v4, map_res, preceded in H. inv_bind H. inv_bind E.
  apply tag_Done in E0. destruct E0 as [-> _].
  apply (take_until_and_consume_sound close_bracket) in E. destruct E as [-> Hy].
  destruct (ipv4_from_str y) as [a|] eqn:Ea; [|discriminate]. injection H as <- <-.
  exists (s2b "[" ++ y ++ s2b "]"). split; [now rewrite <- !app_assoc|]. constructor. now apply ipv4_parses_text.
Qed.
Lemma hostname_sound : psound hostname domain_text.
Proof.
  intros i r x H. unfold hostname in H. apply alt_Done in H. destruct H as [H|[_ H]].
  - apply hostname_host_sound in H. destruct H as (s & -> & H & ->). exists s. split; [reflexivity|].
    now constructor.
  - apply alt_Done in H. destruct H as [H|[_ H]]; [now apply v6_sound|now apply v4_sound].
Qed.

Lemma ipv4_head x a : ipv4_from_str x = Some a -> exists c x', x = c :: x' /\ (48 <= c <= 57)%N.
Proof.
  unfold ipv4_from_str, read_ipv4_addr. intros H.
  destruct x as [|c x]; [discriminate|]. exists c, x. split; [reflexivity|].
  unfold read_number in H. cbn [read_number_loop] in H. unfold parse_digit in H.
  change (10 <? 10)%N with false in H. cbn [andb] in H.
  destruct ((48 <=? c)%N && (c <=? 57)%N) eqn:E; [|discriminate].
  apply andb_true_iff in E. destruct E as [E1 E2]. apply N.leb_le in E1, E2. auto.
Qed.
Lemma open_bracket_not_host u : hostname_host (91%N :: u) = Err.
Proof.
  unfold hostname_host, pmap, recognize. fold host_list. rewrite host_list_Err; [reflexivity|]. notin.
Qed.
Lemma hostname_complete s r d : domain_text s d -> (stops hostc r) -> hostname (s ++ r) = Done r d.
Proof.
  intros H Hr. destruct H as [s Hs|x a Ha|x a Ha].
  2: assert (Hx : ~ In close_bracket x) by (apply addr_text_not; [eapply ipv6_text_chars; eauto|reflexivity]); apply ipv6_parses_text in Ha.
  3: assert (Hx : ~ In close_bracket x) by (apply addr_text_not; [eapply ipv4_text_chars; eauto|reflexivity]); apply ipv4_parses_text in Ha.
  - apply alt_first. unfold hostname_host, pmap. fold host_list.
    destruct (host_list_complete s r Hs Hr) as [y Hy].
    rewrite (recognize_app host_list _ _ _ Hy). reflexivity.
  - unfold hostname. rewrite alt_second by apply open_bracket_not_host. apply alt_first.
    unfold hostname_v6, map_res, preceded. rewrite <- !app_assoc, tag_app. cbn [bind].
    rewrite (take_until_and_consume_app close_bracket) by exact Hx. cbn [bind]. now rewrite Ha.
  - unfold hostname. rewrite alt_second by apply open_bracket_not_host. rewrite alt_second.
    + unfold hostname_v4, map_res, preceded. rewrite <- !app_assoc, tag_app. cbn [bind].
      rewrite (take_until_and_consume_app close_bracket) by exact Hx. cbn [bind]. now rewrite Ha.
    + destruct (ipv4_head x a Ha) as (c & x' & -> & Hc).
      unfold hostname_v6, map_res, preceded, tag, tag_with.
      assert (Hn : (c =? 73)%N = false) by (apply N.eqb_neq; lia).
      cbn. rewrite Hn. reflexivity.
Qed.
Lemma hostname_fuel : pfuel hostname.
Proof.
  apply alt_fuel; [|apply alt_fuel].
  - intros i. apply bind_fuel; [|intros; discriminate]. apply bind_fuel; [|intros; discriminate].
    apply host_list_fuel.
  - intros i. apply bind_fuel; [apply bind_fuel; [apply tag_fuel|]|].
    + intros. apply take_until_and_consume_fuel.
    + intros. destruct (option_map _ _); discriminate.
  - intros i. apply bind_fuel; [apply bind_fuel; [apply tag_fuel|]|].
    + intros. apply take_until_and_consume_fuel.
    + intros. destruct (option_map _ _); discriminate.
Qed.
Lemma hostname_term : pterm hostname.
Proof.
  apply alt_term; [|apply alt_term].
  - intros i _. apply bind_inc; [|intros; discriminate]. apply bind_inc; [|intros; discriminate].
    apply host_list_not_inc.
  - intros i Hi. apply bind_inc; [apply bind_inc|].
    + apply tag_term; [notin|exact Hi].
    + intros i2 x E. apply tag_Done in E. destruct E as [-> _].
      apply (take_until_and_consume_term close_bracket).
      eapply term_suffix; [exact Hi|]. apply okend_forall.
      repeat (constructor; [split; discriminate|]). constructor.
    + intros. destruct (option_map _ _); discriminate.
  - intros i Hi. apply bind_inc; [apply bind_inc|].
    + apply tag_term; [notin|exact Hi].
    + intros i2 x E. apply tag_Done in E. destruct E as [-> _].
      apply (take_until_and_consume_term close_bracket).
      eapply term_suffix; [exact Hi|]. apply okend_forall.
      repeat (constructor; [split; discriminate|]). constructor.
    + intros. destruct (option_map _ _); discriminate.
Qed.
Lemma domain_text_okend s d : domain_text s d -> okend s /\ s <> [].
Proof.
  intros H. destruct H as [s Hs|x a Ha|x a Ha].
  - split.
    + apply (over_set_okend hostset); try reflexivity. now apply host_text_set.
    + apply host_text_head in Hs. destruct Hs as (c & s' & -> & _). discriminate.
  - split; [|discriminate]. rewrite app_assoc. apply okend_app; [discriminate|].
    apply okend_forall. repeat (constructor; [split; discriminate|]). constructor.
  - split; [|discriminate]. rewrite app_assoc. apply okend_app; [discriminate|].
    apply okend_forall. repeat (constructor; [split; discriminate|]). constructor.
Qed.

(** ** Local parts *)
Definition atom_list : parser (list bytes) :=
  separated_nonempty_list_complete (tag (s2b ".")) (is_a atext).
(** [is_a] succeeds with nothing on an empty input, but then the list parser
    sees no progress and stops. *)
Lemma is_a_sound' set : psound (is_a set) (fun s x => s = x /\ over_set set s).
Proof. intros i r x H. apply is_a_sound in H. destruct H as (-> & H & _). eauto. Qed.

Lemma sep_loop_nonempty {A B} (sep : parser A) (P : parser B) (c : N) (G : bytes -> B -> Prop) :
  psound sep (fun s _ => s = [c]) -> psound P G ->
  forall fuel i r xs, sep_loop fuel sep P i = Done r xs ->
  exists ss, i = concat (map (cons c) ss) ++ r /\ Forall2 G ss xs /\ Forall (fun s => s <> []) ss.
Proof.
  intros Hsep HP. induction fuel as [|fuel IH]; intros i r xs H; [discriminate|]. cbn [sep_loop] in H.
  assert (Hstop : Done i (@nil B) = Done r xs ->
    exists ss, i = concat (map (cons c) ss) ++ r /\ Forall2 G ss xs /\ Forall (fun s => s <> []) ss).
  { intros E. injection E as <- <-. exists []. repeat split; constructor. }
  destruct (sep i) as [i2 y| | |] eqn:Es; try discriminate; auto.
  destruct (Nat.eqb _ _); auto.
  destruct (P i2) as [i3 x| | |] eqn:Ep; try discriminate; auto.
  destruct (Nat.eqb_spec (length i3) (length i2)) as [El|El]; auto. inv_bind H. injection H as <- <-.
  apply Hsep in Es. destruct Es as (s & -> & ->).
  apply HP in Ep. destruct Ep as (t & -> & Ht).
  apply IH in E. destruct E as (ss & -> & Hss & Hne).
  exists (t :: ss). split; [cbn; now rewrite <- !app_assoc|]. split; constructor; auto.
  intros ->. cbn in El. congruence.
Qed.
Lemma atom_list_sound : psound atom_list (fun s _ => dot_string_text s).
Proof.
  intros i r x H. unfold atom_list, separated_nonempty_list_complete, separated_nonempty_list in H.
  inv_bind H. destruct (Nat.eqb_spec (length i0) (length i)) as [C|C]; [discriminate|].
  inv_bind H. injection H as <- <-.
  apply complete_inv in E. apply is_a_sound' in E. destruct E as (s & -> & -> & Hs).
  apply (sep_loop_nonempty _ _ DOT _ dot_sep_sound (complete_sound _ _ (is_a_sound' atext))) in E0.
  destruct E0 as (ss & -> & Hss & Hne). exists (y ++ concat (map (cons DOT) ss)).
  split; [now rewrite <- app_assoc|]. exists (y :: ss). split; [discriminate|].
  split; [|symmetry; apply (intercalate_cons DOT)].
  constructor.
  - split; [intros ->; cbn in C; congruence|now apply over_atext].
  - clear -Hss Hne. revert Hne. induction Hss as [|s z ss zs H Hss IH]; intros Hne; constructor.
    + inversion Hne; subst. split; [assumption|]. apply over_atext. destruct H. now subst.
    + apply IH. now inversion Hne.
Qed.
Lemma atom_list_complete s r : dot_string_text s -> stops atomc r -> exists x, atom_list (s ++ r) = Done r x.
Proof.
  intros (ls & Hne & Hls & ->) Hr. destruct ls as [|t ss]; [congruence|].
  change (s2b ".") with [DOT]. rewrite intercalate_cons.
  apply (snl_complete _ _ DOT (stops (fun c => mem c atext)) atom_text).
  - apply dot_sep_app.
  - intros s u [Hn Hs] Hu. exists s. apply over_atext in Hs. apply complete_Done. now apply is_a_app.
  - intros s Hs. apply Hs.
  - reflexivity.
  - eapply stops_impl; [|exact Hr]. intros c. unfold atomc. intros ->. reflexivity.
  - apply dot_sep_Err. eapply stops_impl; [|exact Hr]. intros c. unfold atomc. intros ->.
    apply orb_true_r.
  - exact Hls.
Qed.
Lemma atom_list_fuel : pfuel atom_list.
Proof.
  apply (snl_fuel _ _ DOT (fun s x => s = x /\ over_set atext s)); auto using dot_sep_sound, complete_fuel, tag_fuel, is_a_fuel.
  apply complete_sound, is_a_sound'.
Qed.
Lemma atom_list_not_inc i : atom_list i <> Incomplete.
Proof. apply snl_never_inc; intros; apply complete_not_inc. Qed.
Lemma atom_list_Err c r : ~ In c atext -> atom_list (c :: r) = Err.
Proof. intros H. apply snl_Err. unfold complete. now rewrite is_a_Err. Qed.

Definition atomset : bytes := atext ++ [DOT].
Lemma dot_string_set s : dot_string_text s -> over_set atomset s.
Proof.
  intros (ls & _ & Hls & ->). apply intercalate_set.
  - constructor; [|constructor]. apply mem_In. reflexivity.
  - eapply Forall_impl; [|exact Hls]. intros l [_ Hl].
    eapply over_set_incl; [|apply over_atext, Hl]. reflexivity.
Qed.
Lemma dot_string_head s : dot_string_text s -> exists c s', s = c :: s' /\ In c atext.
Proof.
  intros (ls & Hne & Hls & ->). destruct Hls as [|l ls [Hl Ha] _]; [congruence|].
  apply over_atext in Ha. destruct l as [|c l]; [congruence|]. inversion Ha; subst. destruct ls; cbn; eauto.
Qed.

(** Quoted strings. *)
Definition unit_value (s x : bytes) : Prop := quoted_unit s /\ x = [last s 0%N].
Lemma take1_cons c r : take 1 (c :: r) = Done r [c].
Proof. reflexivity. Qed.
Lemma quoted_pair_ok_iff c : quoted_pair_ok [c] = true <-> printable c.
Proof.
  unfold quoted_pair_ok, printable. rewrite andb_true_iff, !N.leb_le. lia.
Qed.
Lemma qtext_ok_iff c : qtext_ok [c] = true <-> printable c /\ c <> QUOTE /\ c <> BACKSLASH.
Proof.
  unfold qtext_ok, printable, QUOTE, BACKSLASH.
  rewrite !andb_true_iff, !negb_true_iff, !N.leb_le, !N.eqb_neq. lia.
Qed.
Lemma quoted_char_sound : psound quoted_char unit_value.
Proof.
  intros i r x H. unfold quoted_char in H. apply alt_Done in H. destruct H as [H|[_ H]].
  - unfold preceded, verify in H. inv_bind H. apply tag_Done in E. destruct E as [-> _].
    inv_bind H. destruct i0 as [|c i0]; [discriminate|]. rewrite take1_cons in E.
    injection E as <- <-. destruct (quoted_pair_ok [c]) eqn:Eq; [|discriminate].
    injection H as <- <-. exists [BACKSLASH; c]. split; [reflexivity|]. split; [|reflexivity].
    constructor. now apply quoted_pair_ok_iff.
  - unfold verify in H. inv_bind H. destruct i as [|c i]; [discriminate|]. rewrite take1_cons in E.
    injection E as <- <-. destruct (qtext_ok [c]) eqn:Eq; [|discriminate].
    injection H as <- <-. exists [c]. split; [reflexivity|]. split; [|reflexivity].
    apply qtext_ok_iff in Eq. constructor; tauto.
Qed.
Lemma quoted_char_app s x u : unit_value s x -> quoted_char (s ++ u) = Done u x.
Proof.
  intros [H ->]. unfold quoted_char. destruct H as [c H1 H2 H3|c H1].
  - cbn [app]. rewrite alt_second.
    + unfold verify. rewrite take1_cons. cbn [bind].
      rewrite (proj2 (qtext_ok_iff c)) by auto. reflexivity.
    + unfold preceded. rewrite tag_Err; [reflexivity|]. now apply N.eqb_neq.
  - apply alt_first. unfold preceded, verify. cbn [app].
    change (BACKSLASH :: c :: u) with ([BACKSLASH] ++ c :: u). rewrite tag_app. cbn [bind].
    rewrite take1_cons. cbn [bind]. rewrite (proj2 (quoted_pair_ok_iff c)) by auto. reflexivity.
Qed.
Lemma quoted_char_quote u : quoted_char (QUOTE :: u) = Err.
Proof. reflexivity. Qed.
Lemma quoted_char_fuel : pfuel quoted_char.
Proof.
  assert (Hv : forall f, pfuel (verify (take 1) f)).
  { intros f i. apply bind_fuel; [unfold take; destruct (Nat.leb 1 (length i)); discriminate|].
    intros i0 x _. destruct (f x); discriminate. }
  apply alt_fuel; [|apply Hv]. intros i. apply bind_fuel; [apply tag_fuel|]. intros. apply Hv.
Qed.
Lemma quoted_char_term : pterm quoted_char.
Proof.
  assert (Hv : forall f, pterm (verify (take 1) f)).
  { intros f i Hi. apply bind_inc.
    - apply term_len in Hi. unfold take. destruct (Nat.leb_spec 1 (length i)); [discriminate|lia].
    - intros i0 x _. destruct (f x); discriminate. }
  apply alt_term; [|apply Hv]. intros i Hi. apply bind_inc; [apply tag_term; [notin|exact Hi]|].
  intros i0 x E. apply Hv. apply tag_Done in E. destruct E as [-> _].
  apply (term_cons BACKSLASH); [exact Hi|discriminate|discriminate].
Qed.
Lemma unit_value_ok s x : unit_value s x -> s <> [] /\ Forall printable s.
Proof.
  intros [H _]. destruct H; (split; [discriminate|]); repeat apply Forall_cons; auto; unfold printable, BACKSLASH; lia.
Qed.
Lemma printable_not_crlf c : printable c -> c <> CR /\ c <> LF.
Proof. unfold printable, CR, LF. lia. Qed.
Lemma printable_okend s : Forall printable s -> okend s.
Proof. intros H. apply okend_forall. eapply Forall_impl; [|exact H]. apply printable_not_crlf. Qed.

Definition quoted_body : parser unit := fun i =>
    bind (tag [QUOTE] i) (fun i _ =>
    bind (many0 quoted_char i) (fun i _ =>
    bind (tag [QUOTE] i) (fun i _ => Done i tt))).
Lemma quoted_body_sound : psound quoted_body (fun s _ => quoted_string_text s).
Proof.
  intros i r x H. unfold quoted_body in H. inv_bind H. apply tag_Done in E. destruct E as [-> _].
  inv_bind H. apply (many0_loop_sound _ _ quoted_char_sound) in E. destruct E as (ss & -> & Hss).
  inv_bind H. apply tag_Done in E. destruct E as [-> _]. injection H as <- _.
  exists ([QUOTE] ++ concat ss ++ [QUOTE]). split; [now rewrite <- !app_assoc|].
  exists ss. split; [|reflexivity]. clear -Hss. induction Hss; constructor; auto. apply H.
Qed.
Lemma quoted_body_app s r : quoted_string_text s -> quoted_body (s ++ r) = Done r tt.
Proof.
  intros (us & Hus & ->). unfold quoted_body. rewrite <- !app_assoc. rewrite tag_app. cbn [bind].
  assert (Hx : exists xs, Forall2 unit_value us xs).
  { induction Hus as [|u us Hu Hus [xs IH]]; [exists []; constructor|].
    exists ([last u 0%N] :: xs). constructor; [|exact IH]. now split. }
  destruct Hx as [xs Hx]. unfold many0.
  rewrite (many0_loop_complete quoted_char unit_value _ us xs ([QUOTE] ++ r)); auto.
  - cbn [bind]. rewrite tag_app. reflexivity.
  - intros s x u Hs _. now apply quoted_char_app.
  - intros s x Hs. now apply unit_value_ok in Hs.
Qed.
Lemma quoted_body_fuel : pfuel quoted_body.
Proof.
  intros i. apply bind_fuel; [apply tag_fuel|]. intros i1 _ _. apply bind_fuel.
  - apply (many0_loop_fuel _ _ quoted_char_sound quoted_char_fuel). lia.
  - intros. apply bind_fuel; [apply tag_fuel|]. intros; discriminate.
Qed.
Lemma quoted_body_term : pterm quoted_body.
Proof.
  intros i Hi. apply bind_inc; [apply tag_term; [notin|exact Hi]|]. intros i1 x1 E.
  apply tag_Done in E. destruct E as [-> _].
  assert (H1 : term i1) by (apply (term_cons QUOTE); [exact Hi|discriminate|discriminate]).
  assert (Hok : forall s x, unit_value s x -> okend s).
  { intros s x Hs. apply unit_value_ok in Hs. now apply printable_okend. }
  apply bind_inc.
  - apply (many0_loop_inc _ _ quoted_char_sound quoted_char_term); [exact Hok|exact H1].
  - intros i2 x2 E. apply (many0_loop_sound _ _ quoted_char_sound) in E. destruct E as (ss & -> & Hss).
    apply bind_inc; [|intros; discriminate]. apply tag_term; [notin|].
    eapply term_suffix; [exact H1|]. apply printable_okend.
    clear -Hss. induction Hss; cbn; [constructor|]. apply Forall_app. split; [|auto].
    now apply unit_value_ok in H.
Qed.

Definition local_value (s x : bytes) : Prop := s = x /\ local_text s.
Lemma localpart_sound : psound localpart local_value.
Proof.
  intros i r x H. unfold localpart in H. apply alt_Done in H. destruct H as [H|[_ H]].
  - apply (recognize_sound _ _ quoted_body_sound) in H. destruct H as (s & -> & -> & _ & H).
    exists x. repeat split. now left.
  - apply (recognize_sound _ _ atom_list_sound) in H. destruct H as (s & -> & -> & _ & H).
    exists x. repeat split. now right.
Qed.
Lemma quoted_Err c r : (c =? QUOTE)%N = false -> quoted_string (c :: r) = Err.
Proof.
  intros H. unfold quoted_string. fold quoted_body. unfold recognize, quoted_body.
  now rewrite tag_Err.
Qed.
Lemma localpart_complete s r : local_text s -> stops atomc r -> localpart (s ++ r) = Done r s.
Proof.
  intros [H|H] Hr.
  - apply alt_first. unfold quoted_string. apply (recognize_app quoted_body) with (y := tt).
    now apply quoted_body_app.
  - unfold localpart. rewrite alt_second.
    + destruct (atom_list_complete s r H Hr) as [x Hx]. now apply (recognize_app atom_list) with (y := x).
    + destruct (dot_string_head s H) as (c & s' & -> & Hc). cbn [app]. apply quoted_Err.
      apply N.eqb_neq. neq_set Hc.
Qed.
Lemma localpart_fuel : pfuel localpart.
Proof.
  apply alt_fuel; intros i; (apply bind_fuel; [|intros; discriminate]).
  - apply quoted_body_fuel.
  - apply atom_list_fuel.
Qed.
Lemma localpart_term : pterm localpart.
Proof.
  apply alt_term; intros i Hi; (apply bind_inc; [|intros; discriminate]).
  - now apply quoted_body_term.
  - apply atom_list_not_inc.
Qed.
Lemma localpart_Err c r : ~ In c (QUOTE :: atext) -> localpart (c :: r) = Err.
Proof.
  intros H. unfold localpart. rewrite alt_second.
  - unfold dot_string. fold atom_list. unfold recognize. rewrite atom_list_Err; [reflexivity|].
    intros C. apply H. now right.
  - apply quoted_Err. apply N.eqb_neq. intros ->. apply H. now left.
Qed.
Lemma local_text_okend s : local_text s -> okend s.
Proof.
  intros [(us & Hus & ->)|H].
  - rewrite app_assoc. apply okend_app; [discriminate|]. apply okend_forall.
    repeat (constructor; [split; discriminate|]). constructor.
  - apply dot_string_set in H. now apply (over_set_okend atomset).
Qed.
Lemma local_text_head s : local_text s -> exists c s', s = c :: s' /\ In c (QUOTE :: atext).
Proof.
  intros [(us & Hus & ->)|H].
  - cbn. eauto.
  - apply dot_string_head in H. destruct H as (c & s' & -> & H). exists c, s'. split; [reflexivity|now right].
Qed.

(** ** Addresses *)
Lemma email_sound : psound email_p email_text.
Proof.
  intros i r x H. unfold email_p in H. inv_bind H. apply localpart_sound in E.
  destruct E as (s & -> & -> & Hl). inv_bind H. injection H as <- <-.
  apply opt_Done in E. destruct E as [(d & E & ->)|(E & -> & ->)].
  - apply complete_inv in E. unfold preceded in E. inv_bind E. apply tag_Done in E0.
    destruct E0 as [-> _]. apply hostname_sound in E. destruct E as (t & -> & Ht).
    exists (y ++ s2b "@" ++ t). split; [now rewrite <- !app_assoc|]. now constructor.
  - exists y. split; [reflexivity|]. now constructor.
Qed.
Lemma emailc_at : emailc AT = true.
Proof. reflexivity. Qed.
Lemma hostc_emailc c : hostc c = true -> emailc c = true.
Proof.
  unfold hostc, emailc, atomc. rewrite !orb_true_iff. intros [H|H]; [|auto].
  left; left. revert H. apply mem_impl. reflexivity.
Qed.
Lemma email_complete s r e : email_text s e -> stops emailc r -> email_p (s ++ r) = Done r e.
Proof.
  intros H Hr. unfold email_p. destruct H as [l Hl|l t d Hl Ht].
  - rewrite localpart_complete; auto.
    + cbn [bind]. rewrite opt_none; [reflexivity|]. unfold complete, preceded.
      destruct r as [|c r]; [reflexivity|]. cbn in Hr. unfold emailc in Hr.
      apply orb_false_iff in Hr. change (s2b "@") with [AT]. rewrite tag_Err; [reflexivity|]. apply Hr.
    + eapply stops_impl; [|exact Hr]. intros c H. unfold emailc. now rewrite H.
  - rewrite <- !app_assoc. rewrite localpart_complete; [|exact Hl|reflexivity].
    cbn [bind]. erewrite opt_some; [reflexivity|]. apply complete_Done. unfold preceded.
    rewrite tag_app. cbn [bind]. apply hostname_complete; [exact Ht|].
    eapply stops_impl; [|exact Hr]. apply hostc_emailc.
Qed.
Lemma email_fuel : pfuel email_p.
Proof.
  intros i. apply bind_fuel; [apply localpart_fuel|]. intros. apply bind_fuel; [|intros; discriminate].
  apply opt_fuel, complete_fuel. intros j. apply bind_fuel; [apply tag_fuel|]. intros. apply hostname_fuel.
Qed.
Lemma email_term : pterm email_p.
Proof.
  intros i Hi. apply bind_inc; [now apply localpart_term|]. intros.
  apply bind_inc; [|intros; discriminate]. apply opt_inc, complete_not_inc.
Qed.
Lemma email_Err c r : ~ In c (QUOTE :: atext) -> email_p (c :: r) = Err.
Proof. intros H. unfold email_p. now rewrite localpart_Err. Qed.
Lemma email_text_okend s e : email_text s e -> okend s.
Proof.
  intros [l Hl|l t d Hl Ht]; [now apply local_text_okend|].
  rewrite app_assoc. apply okend_app; now apply domain_text_okend in Ht.
Qed.
Lemma email_text_head s e : email_text s e -> exists c s', s = c :: s' /\ In c (QUOTE :: atext).
Proof.
  intros [l Hl|l t d Hl Ht]; [now apply local_text_head|].
  apply local_text_head in Hl. destruct Hl as (c & s' & -> & H). cbn. eauto.
Qed.

(** ** Paths *)
Definition hop_text (h : bytes) : Prop := exists t d, h = s2b "@" ++ t /\ domain_text t d.
Lemma hop_sound : psound path_hop (fun s _ => hop_text s).
Proof.
  intros i r x H. unfold path_hop in H. inv_bind H. apply tag_Done in E. destruct E as [-> _].
  inv_bind H. injection H as <- <-. apply hostname_sound in E. destruct E as (t & -> & Ht).
  exists (s2b "@" ++ t). split; [now rewrite <- app_assoc|]. exists t, y0. auto.
Qed.
Lemma hop_complete s r : hop_text s -> stops hostc r -> path_hop (s ++ r) = Done r tt.
Proof.
  intros (t & d & -> & Ht) Hr. unfold path_hop. rewrite <- app_assoc, tag_app. cbn [bind].
  now rewrite (hostname_complete t r d Ht Hr).
Qed.
Lemma hop_fuel : pfuel path_hop.
Proof.
  intros i. apply bind_fuel; [apply tag_fuel|]. intros. apply bind_fuel; [apply hostname_fuel|].
  intros; discriminate.
Qed.
Lemma hop_term : pterm path_hop.
Proof.
  intros i Hi. apply bind_inc; [apply tag_term; [notin|exact Hi]|]. intros i1 x1 E.
  apply tag_Done in E. destruct E as [-> _]. apply bind_inc; [|intros; discriminate].
  apply hostname_term. apply (term_cons AT); [exact Hi|discriminate|discriminate].
Qed.
Lemma hop_Err c r : (c =? AT)%N = false -> path_hop (c :: r) = Err.
Proof. intros H. unfold path_hop. change (s2b "@") with [AT]. now rewrite tag_Err. Qed.
Lemma hop_text_okend s : hop_text s -> okend s.
Proof.
  intros (t & d & -> & Ht). apply domain_text_okend in Ht. destruct Ht. now apply okend_app.
Qed.
Definition COMMA : N := 44%N.
Definition COLON : N := 58%N.
Lemma comma_sound : psound (tag (s2b ",")) (fun s _ => s = [COMMA]).
Proof.
  intros i r x H. apply tag_Done in H. destruct H as [-> ->]. exists (s2b ","). auto.
Qed.
Lemma route_sound : psound source_route (fun s _ => route_text s).
Proof.
  intros i r x H. unfold source_route in H. inv_bind H. inv_bind H. injection H as <- _.
  apply tag_Done in E0. destruct E0 as [-> _].
  apply (slist_sound _ _ COMMA _ comma_sound hop_sound) in E.
  destruct E as (s & -> & [[-> ->]|(t & ss & -> & Hall)]).
  - exists (s2b ":"). split; [reflexivity|]. exists []. split; [constructor|reflexivity].
  - exists ((t ++ concat (map (cons COMMA) ss)) ++ s2b ":"). split; [now rewrite <- !app_assoc|].
    exists (t :: ss). split; [eapply Forall2_fst; exact Hall|].
    change (s2b ",") with [COMMA]. now rewrite intercalate_cons.
Qed.
Lemma route_complete s r : route_text s -> source_route (s ++ r) = Done r tt.
Proof.
  intros (hops & Hh & ->). unfold source_route. rewrite <- app_assoc.
  destruct hops as [|t ss].
  - cbn [intercalate app]. unfold separated_list. change (s2b ":" ++ r) with (COLON :: r).
    rewrite hop_Err by reflexivity. cbn [bind].
    change (COLON :: r) with (s2b ":" ++ r). rewrite tag_app. reflexivity.
  - change (intercalate (s2b ",") (t :: ss)) with (intercalate [COMMA] (t :: ss)). rewrite intercalate_cons.
    destruct (slist_complete (tag (s2b ",")) path_hop COMMA (stops hostc) hop_text t ss (s2b ":" ++ r))
      as [xs Hxs].
    + intros u. eexists. apply (tag_app (s2b ",")).
    + intros s u Hs Hu. exists tt. now apply hop_complete.
    + intros s (t' & d & -> & _). discriminate.
    + reflexivity.
    + reflexivity.
    + apply tag_Err. reflexivity.
    + exact Hh.
    + rewrite Hxs. cbn [bind]. rewrite tag_app. reflexivity.
Qed.
Lemma route_fuel : pfuel source_route.
Proof.
  intros i. apply bind_fuel; [apply (slist_fuel _ _ COMMA _ comma_sound hop_sound)|].
  - apply tag_fuel.
  - apply hop_fuel.
  - intros. apply bind_fuel; [apply tag_fuel|]. intros; discriminate.
Qed.
Lemma okend_colon s : okend (s ++ s2b ":").
Proof.
  apply okend_app; [discriminate|]. apply okend_forall.
  repeat (constructor; [split; discriminate|]). constructor.
Qed.
Lemma hops_okend ss : Forall hop_text ss -> okend (concat (map (cons COMMA) ss)).
Proof.
  induction 1 as [|s ss Hs Hss IH]; [apply okend_nil|]. cbn [map concat].
  apply okend_app2; [|exact IH]. apply (okend_app2 [COMMA] s); [|now apply hop_text_okend].
  apply okend_forall. repeat constructor; discriminate.
Qed.
Lemma route_term : pterm source_route.
Proof.
  intros i Hi. apply bind_inc.
  - apply (slist_term _ _ COMMA _ comma_sound hop_sound); auto using hop_term; try discriminate.
    + intros s _. apply hop_text_okend.
    + apply tag_term. notin.
  - intros i1 x1 E. apply bind_inc; [|intros; discriminate]. apply tag_term; [notin|].
    apply (slist_sound _ _ COMMA _ comma_sound hop_sound) in E.
    destruct E as (s & -> & [[-> ->]|(t & ss & -> & Hall)]); [exact Hi|].
    eapply term_suffix; [exact Hi|]. apply Forall2_fst in Hall. inversion Hall; subst.
    apply okend_app2; [now apply hop_text_okend|now apply hops_okend].
Qed.
Lemma route_Err c r : (c =? AT)%N = false -> (c =? COLON)%N = false -> source_route (c :: r) = Err.
Proof.
  intros H1 H2. unfold source_route, separated_list. rewrite hop_Err by exact H1. cbn [bind].
  change (s2b ":") with [COLON]. now rewrite tag_Err.
Qed.
Lemma route_text_head s : route_text s -> exists c s', s = c :: s' /\ (c = AT \/ c = COLON).
Proof.
  intros (hops & Hh & ->). destruct hops as [|h hops].
  - cbn. eauto.
  - inversion Hh as [|? ? (t & d & -> & _) _]; subst. destruct hops; cbn; eauto.
Qed.

Lemma path_sound : psound address_in_path path_text.
Proof.
  intros i r x H. unfold address_in_path, preceded in H. inv_bind H.
  apply email_sound in H. destruct H as (s & -> & Hs).
  apply opt_Done in E. destruct E as [(u & E & ->)|(E & <- & ->)].
  - apply route_sound in E. destruct E as (t & -> & Ht). exists (t ++ s).
    split; [now rewrite <- app_assoc|]. now constructor.
  - exists s. split; [reflexivity|]. now constructor.
Qed.
Lemma path_complete s r e : path_text s e -> stops emailc r -> address_in_path (s ++ r) = Done r e.
Proof.
  intros [s' e' H|t s' e' Ht H] Hr; unfold address_in_path, preceded.
  - rewrite opt_none.
    + cbn [bind]. now apply email_complete.
    + destruct (email_text_head _ _ H) as (c & u & -> & Hc). cbn [app]. apply route_Err;
        apply N.eqb_neq; neq_set Hc.
  - rewrite <- app_assoc. erewrite opt_some by (apply route_complete; exact Ht). cbn [bind].
    now apply email_complete.
Qed.
Lemma path_fuel : pfuel address_in_path.
Proof.
  intros i. apply bind_fuel; [apply opt_fuel, route_fuel|]. intros. apply email_fuel.
Qed.
Lemma route_text_okend s : route_text s -> okend s.
Proof. intros (hops & _ & ->). apply okend_colon. Qed.
Lemma path_term : pterm address_in_path.
Proof.
  intros i Hi. apply bind_inc; [apply opt_inc; now apply route_term|].
  intros i1 x1 E. apply email_term. apply opt_Done in E.
  destruct E as [(u & E & ->)|(E & -> & ->)]; [|exact Hi].
  apply route_sound in E. destruct E as (t & -> & Ht). eapply term_suffix; [exact Hi|].
  now apply route_text_okend.
Qed.
Lemma path_text_okend s e : path_text s e -> okend s.
Proof.
  intros [s' e' H|t s' e' Ht H]; [now apply email_text_okend in H|].
  apply okend_app2; [now apply route_text_okend|now apply email_text_okend in H].
Qed.
Lemma path_text_head s e : path_text s e ->
  exists c s', s = c :: s' /\ In c (AT :: COLON :: QUOTE :: atext).
Proof.
  intros [s' e' H|t s' e' Ht H].
  - apply email_text_head in H. destruct H as (c & u & -> & Hc). exists c, u.
    split; [reflexivity|]. right; right; exact Hc.
  - apply route_text_head in Ht. destruct Ht as (c & u & -> & [-> | ->]); cbn; eauto 10.
Qed.

Definition LT : N := 60%N.
Definition GT : N := 62%N.
Lemma bpath_sound : psound address_in_maybe_bracketed_path maybe_bracketed_text.
Proof.
  intros i r x H. unfold address_in_maybe_bracketed_path in H. apply alt_Done in H.
  destruct H as [H|[_ H]].
  - unfold bracketed_path in H. inv_bind H. apply tag_Done in E. destruct E as [-> _].
    inv_bind H. apply path_sound in E. destruct E as (s & -> & Hs).
    inv_bind H. apply tag_Done in E. destruct E as [-> _]. injection H as <- <-.
    exists (s2b "<" ++ s ++ s2b ">"). split; [now rewrite <- !app_assoc|]. now constructor.
  - apply path_sound in H. destruct H as (s & -> & Hs). exists s. split; [reflexivity|].
    now constructor.
Qed.
Lemma bpath_complete s r e : maybe_bracketed_text s e -> stops emailc r ->
  address_in_maybe_bracketed_path (s ++ r) = Done r e.
Proof.
  intros [s' e' H|s' e' H] Hr; unfold address_in_maybe_bracketed_path.
  - apply alt_first. unfold bracketed_path. rewrite <- !app_assoc, tag_app. cbn [bind].
    rewrite (path_complete s' _ e' H) by reflexivity. cbn [bind]. rewrite tag_app. reflexivity.
  - rewrite alt_second; [now apply path_complete|].
    destruct (path_text_head _ _ H) as (c & u & -> & Hc). cbn [app]. unfold bracketed_path.
    change (s2b "<") with [LT]. rewrite tag_Err; [reflexivity|]. apply N.eqb_neq. neq_set Hc.
Qed.
Lemma bpath_fuel : pfuel address_in_maybe_bracketed_path.
Proof.
  apply alt_fuel; [|apply path_fuel]. intros i. apply bind_fuel; [apply tag_fuel|]. intros.
  apply bind_fuel; [apply path_fuel|]. intros. apply bind_fuel; [apply tag_fuel|]. intros; discriminate.
Qed.
Lemma bpath_term : pterm address_in_maybe_bracketed_path.
Proof.
  apply alt_term; [|apply path_term]. intros i Hi. apply bind_inc; [apply tag_term; [notin|exact Hi]|].
  intros i1 x1 E. apply tag_Done in E. destruct E as [-> _].
  assert (H1 : term i1) by (apply (term_cons LT); [exact Hi|discriminate|discriminate]).
  apply bind_inc; [now apply path_term|]. intros i2 x2 E. apply path_sound in E.
  destruct E as (s & -> & Hs). apply bind_inc; [|intros; discriminate].
  apply tag_term; [notin|]. eapply term_suffix; [exact H1|]. now apply path_text_okend in Hs.
Qed.
Lemma bpath_text_okend s e : maybe_bracketed_text s e -> okend s.
Proof.
  intros [s' e' H|s' e' H]; [|now apply path_text_okend in H].
  rewrite app_assoc. apply okend_app; [discriminate|]. apply okend_forall.
  repeat (constructor; [split; discriminate|]). constructor.
Qed.
Lemma bpath_text_head s e : maybe_bracketed_text s e ->
  exists c s', s = c :: s' /\
   ((c = LT /\ exists d s'', s' = d :: s'' /\ In d (AT :: COLON :: QUOTE :: atext))
    \/ In c (AT :: COLON :: QUOTE :: atext)).
Proof.
  intros [s' e' H|s' e' H]; apply path_text_head in H; destruct H as (c & u & -> & Hc).
  - exists LT, (c :: u ++ s2b ">"). split; [reflexivity|]. left. eauto.
  - exists c, u. auto.
Qed.
