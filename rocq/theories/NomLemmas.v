(** Generic facts about the nom combinators. *)
From Verif Require Import Bytes Nom SpecData SpecGrammar DataLines StreamProofs.

(** [P] only succeeds on a prefix of grammar [G]. *)
Definition psound {A} (P : parser A) (G : bytes -> A -> Prop) : Prop :=
  forall i r x, P i = Done r x -> exists s, i = s ++ r /\ G s x.
(** [P] succeeds on every text of [G] followed by something that satisfies [F]. *)
Definition pcomplete {A} (P : parser A) (G : bytes -> A -> Prop) (F : bytes -> Prop) : Prop :=
  forall s r x, G s x -> F r -> P (s ++ r) = Done r x.
Definition pfuel {A} (P : parser A) : Prop := forall i, P i <> OutOfFuel.
(** Inputs that end in CRLF. *)
Definition term (i : bytes) : Prop := exists u, i = u ++ CRLF.
Definition pterm {A} (P : parser A) : Prop := forall i, term i -> P i <> Incomplete.

Definition stops (p : N -> bool) (r : bytes) : Prop :=
  match r with [] => True | c :: _ => p c = false end.

(** The text does not end in CR or LF. *)
Definition okend (s : bytes) : Prop := forall u c, s = u ++ [c] -> c <> CR /\ c <> LF.
Lemma okend_nil : okend [].
Proof. intros u c E. destruct u; discriminate. Qed.
Lemma okend_app a b : b <> [] -> okend b -> okend (a ++ b).
Proof.
  intros Hb H u c E. destruct b as [|x b] using rev_ind; [congruence|].
  rewrite app_assoc in E. apply app_inj_tail in E. destruct E as [_ <-]. now apply (H b x).
Qed.
Lemma okend_app2 a b : okend a -> okend b -> okend (a ++ b).
Proof.
  intros Ha Hb. destruct b as [|x b]; [now rewrite app_nil_r|]. apply okend_app; [discriminate|exact Hb].
Qed.
Lemma okend_forall s : Forall (fun c => c <> CR /\ c <> LF) s -> okend s.
Proof.
  intros H u c ->. apply Forall_app in H. destruct H as [_ H]. now inversion H.
Qed.
Lemma term_suffix s r : term (s ++ r) -> okend s -> term r.
Proof.
  intros [u E] H. destruct r as [|y r] using rev_ind.
  - rewrite app_nil_r in E. subst s. exfalso.
    destruct (H (u ++ [CR]) LF) as [_ C]; [now rewrite <- app_assoc|]. congruence.
  - clear IHr. change CRLF with ([CR] ++ [LF]) in E.
    rewrite !app_assoc in E. apply app_inj_tail in E. destruct E as [E ->].
    destruct r as [|z r] using rev_ind.
    + rewrite app_nil_r in E. exfalso. destruct (H u CR E) as [C _]. congruence.
    + rewrite app_assoc in E. apply app_inj_tail in E. destruct E as [_ ->].
      exists r. now rewrite <- app_assoc.
Qed.
Lemma term_nonempty i : term i -> exists c i', i = c :: i'.
Proof. intros [u ->]. destruct u; cbn; do 2 eexists; reflexivity. Qed.
Lemma term_nil : ~ term [].
Proof. intros H. apply term_nonempty in H. destruct H as (c & i & H). discriminate. Qed.
Lemma term_len i : term i -> 2 <= length i.
Proof. intros [u ->]. rewrite app_length. cbn. lia. Qed.
Lemma term_app s r : term r -> term (s ++ r).
Proof. intros [u ->]. exists (s ++ u). now rewrite app_assoc. Qed.
Lemma term_CRLF : term CRLF.
Proof. exists []. reflexivity. Qed.
Lemma term_cons c i : term (c :: i) -> c <> CR -> c <> LF -> term i.
Proof.
  intros H H1 H2. apply (term_suffix [c] i); [exact H|].
  apply okend_forall. constructor; auto.
Qed.

(** ** mem, span *)
Lemma mem_In c s : mem c s = true <-> In c s.
Proof.
  unfold mem. rewrite existsb_exists. split.
  - intros (x & Hx & E). apply N.eqb_eq in E. now subst.
  - intros H. exists c. split; [exact H|apply N.eqb_refl].
Qed.
Lemma mem_not_In c s : mem c s = false <-> ~ In c s.
Proof. rewrite <- mem_In. destruct (mem c s); split; congruence. Qed.

Lemma span_spec p : forall i a r, span p i = (a, r) ->
  i = a ++ r /\ Forall (fun c => p c = true) a /\ stops p r.
Proof.
  induction i as [|c i IH]; intros a r H; cbn in H.
  - injection H as <- <-. repeat split; auto.
  - destruct (p c) eqn:E.
    + destruct (span p i) as [a' r'] eqn:Es. injection H as <- <-.
      destruct (IH a' r' eq_refl) as (-> & Ha & Hr). repeat split; auto.
    + injection H as <- <-. repeat split; auto.
Qed.
Lemma span_app p a r : Forall (fun c => p c = true) a -> stops p r -> span p (a ++ r) = (a, r).
Proof.
  induction 1 as [|c a Hc Ha IH]; intros Hr; cbn.
  - destruct r as [|c r]; [reflexivity|]. cbn in *. now rewrite Hr.
  - rewrite Hc, IH; auto.
Qed.
Lemma over_set_mem set s : over_set set s <-> Forall (fun c => mem c set = true) s.
Proof. unfold over_set. split; apply Forall_impl; intros; now apply mem_In. Qed.

(** ** bind *)
Lemma bind_Done {A B} (m : iresult A) (f : bytes -> A -> iresult B) r x :
  bind m f = Done r x -> exists i y, m = Done i y /\ f i y = Done r x.
Proof. destruct m; cbn; try discriminate. eauto. Qed.
Lemma bind_fuel {A B} (m : iresult A) (f : bytes -> A -> iresult B) :
  m <> OutOfFuel -> (forall i x, m = Done i x -> f i x <> OutOfFuel) -> bind m f <> OutOfFuel.
Proof. destruct m; cbn; auto; congruence. Qed.
Lemma bind_inc {A B} (m : iresult A) (f : bytes -> A -> iresult B) :
  m <> Incomplete -> (forall i x, m = Done i x -> f i x <> Incomplete) -> bind m f <> Incomplete.
Proof. destruct m; cbn; auto; congruence. Qed.

(** Invert a successful [bind]. *)
Ltac inv_bind H :=
  let i := fresh "i" in let y := fresh "y" in let E := fresh "E" in
  apply bind_Done in H; destruct H as (i & y & E & H).

(** ** tag *)
Lemma Forall2_length {A B} (R : A -> B -> Prop) l l' : Forall2 R l l' -> length l = length l'.
Proof. induction 1; cbn; auto. Qed.
Lemma compare_with_spec eq : forall t i,
  match compare_with eq i t with
  | CmpOk => exists v r, i = v ++ r /\ Forall2 (fun a b => eq a b = true) v t
  | CmpIncomplete => exists t1 t2, t = t1 ++ t2 /\ t2 <> [] /\ Forall2 (fun a b => eq a b = true) i t1
  | CmpError => exists v a r, i = v ++ a :: r /\ exists t1 b t2, t = t1 ++ b :: t2
       /\ Forall2 (fun a b => eq a b = true) v t1 /\ eq a b = false
  end.
Proof.
  induction t as [|b t IH]; intros i.
  - destruct i; cbn [compare_with]; [exists [], []; auto|exists [], (n :: i); auto].
  - destruct i as [|a i]; cbn [compare_with].
    + exists [], (b :: t). repeat split; auto. discriminate.
    + destruct (eq a b) eqn:E.
      * specialize (IH i). destruct (compare_with eq i t).
        -- destruct IH as (v & r & -> & H). exists (a :: v), r. auto.
        -- destruct IH as (t1 & t2 & -> & H1 & H2). exists (b :: t1), t2. auto.
        -- destruct IH as (v & a' & r & -> & t1 & b' & t2 & -> & H1 & H2).
           exists (a :: v), a', r. split; [reflexivity|]. exists (b :: t1), b', t2. auto.
      * exists [], a, i. split; [reflexivity|]. exists [], b, t. auto.
Qed.
Lemma compare_with_ok eq v t r : Forall2 (fun a b => eq a b = true) v t ->
  compare_with eq (v ++ r) t = CmpOk.
Proof. induction 1; cbn; [destruct r; reflexivity|]. now rewrite H. Qed.
Lemma tag_with_sound eq t : psound (tag_with eq t)
  (fun s x => s = x /\ Forall2 (fun a b => eq a b = true) s t).
Proof.
  intros i r x H. unfold tag_with in H. pose proof (compare_with_spec eq t i) as P.
  destruct (compare_with eq i t); try discriminate. injection H as <- <-.
  destruct P as (v & r & -> & Hv). exists v. rewrite <- (Forall2_length _ _ _ Hv).
  rewrite skipn_app, skipn_all, Nat.sub_diag. cbn. rewrite firstn_app, firstn_all, Nat.sub_diag.
  cbn. rewrite app_nil_r. auto.
Qed.
Lemma tag_with_complete eq t v r : Forall2 (fun a b => eq a b = true) v t ->
  tag_with eq t (v ++ r) = Done r v.
Proof.
  intros H. unfold tag_with. rewrite compare_with_ok by exact H. rewrite <- (Forall2_length _ _ _ H).
  rewrite skipn_app, skipn_all, Nat.sub_diag. cbn. rewrite firstn_app, firstn_all, Nat.sub_diag.
  cbn. now rewrite app_nil_r.
Qed.
Lemma tag_with_fuel eq t : pfuel (tag_with eq t).
Proof. intros i. unfold tag_with. destruct (compare_with eq i t); discriminate. Qed.
Lemma Forall2_eqb v t : Forall2 (fun a b => (a =? b)%N = true) v t <-> v = t.
Proof.
  split.
  - induction 1 as [|a b v t H _ IH]; [reflexivity|]. apply N.eqb_eq in H. congruence.
  - intros ->. induction t; constructor; auto. apply N.eqb_refl.
Qed.
Lemma tag_sound t : psound (tag t) (fun s x => s = t /\ x = t).
Proof.
  intros i r x H. apply tag_with_sound in H. destruct H as (s & -> & -> & H).
  apply Forall2_eqb in H. subst. eauto.
Qed.
Lemma tag_Done t i r x : tag t i = Done r x <-> i = t ++ r /\ x = t.
Proof.
  split.
  - intros H. apply tag_sound in H. destruct H as (s & -> & -> & ->). auto.
  - intros [-> ->]. apply tag_with_complete. now apply Forall2_eqb.
Qed.
Lemma tag_app t r : tag t (t ++ r) = Done r t.
Proof. now apply tag_Done. Qed.
Lemma tag_fuel t : pfuel (tag t).
Proof. apply tag_with_fuel. Qed.
(** First byte differs: error. *)
Lemma tag_Err c t a r : (a =? c)%N = false -> tag (c :: t) (a :: r) = Err.
Proof. intros H. unfold tag, tag_with. cbn. now rewrite H. Qed.
Lemma tag_nil_Err c t : tag (c :: t) [] = Incomplete.
Proof. reflexivity. Qed.

Lemma tag_with_term eq t : (forall a b, eq a b = true -> In b t -> a <> LF) \/ t = CRLF ->
  (forall b, eq LF b = true -> b = LF) -> pterm (tag_with eq t).
Proof.
  intros Ht Hlf i Hi. unfold tag_with. pose proof (compare_with_spec eq t i) as P.
  destruct (compare_with eq i t); try discriminate. exfalso.
  destruct P as (t1 & t2 & -> & Hne & H2). destruct Ht as [Ht|Ht].
  - destruct Hi as [u ->]. apply Forall2_app_inv_l in H2.
    destruct H2 as (l1 & l2 & _ & H2 & ->). inversion H2; subst. inversion H4; subst.
    inversion H6; subst. apply (Ht LF y0); auto. rewrite !in_app_iff. cbn. tauto.
  - apply term_len in Hi. apply Forall2_length in H2. apply (f_equal (@length _)) in Ht.
    rewrite app_length in Ht. destruct t2; [congruence|]. cbn in Ht. lia.
Qed.
Lemma tag_term t : ~ In LF t -> pterm (tag t).
Proof.
  intros H. apply tag_with_term.
  - left. intros a b E Hb ->. apply N.eqb_eq in E. subst. auto.
  - intros b E. now apply N.eqb_eq in E.
Qed.
Lemma crlf_term : pterm (tag CRLF).
Proof. apply tag_with_term; [now right|]. intros b E. now apply N.eqb_eq in E. Qed.

(** ** Case-insensitive tags *)
Lemma letter_check : forallb (fun a => negb (is_letter a) || (N.lor a 32 =? upper a + 32)%N)
    (map N.of_nat (seq 0 128)) = true.
Proof. vm_compute. reflexivity. Qed.
Lemma is_letter_spec a : is_letter a = true <-> (65 <= a <= 90 \/ 97 <= a <= 122)%N.
Proof. unfold is_letter, in_range. rewrite orb_true_iff, !andb_true_iff, !N.leb_le. reflexivity. Qed.
Lemma upper_spec a : ((97 <= a <= 122)%N /\ upper a = (a - 32)%N) \/ (~ (97 <= a <= 122)%N /\ upper a = a).
Proof.
  unfold upper. destruct (N.leb_spec 97 a), (N.leb_spec a 122); cbn [andb]; [left|right|right|right]; split; auto; lia.
Qed.
Lemma letter_lor a : is_letter a = true -> N.lor a 32 = (upper a + 32)%N.
Proof.
  intros H. pose proof letter_check as P. rewrite forallb_forall in P.
  assert (Hin : In a (map N.of_nat (seq 0 128))).
  { apply is_letter_spec in H. apply in_map_iff. exists (N.to_nat a). split; [apply N2Nat.id|]. apply in_seq. lia. }
  specialize (P a Hin). rewrite H in P. cbn [negb orb] in P. now apply N.eqb_eq.
Qed.
Lemma eq_no_case_spec a b : eq_no_case a b = true <-> upper a = upper b.
Proof.
  unfold eq_no_case. pose proof (upper_spec a) as Ua. pose proof (upper_spec b) as Ub.
  destruct (is_letter a) eqn:Ea, (is_letter b) eqn:Eb; cbn [andb orb].
  - rewrite (letter_lor a Ea), (letter_lor b Eb), N.eqb_eq. lia.
  - assert (~ (65 <= b <= 90 \/ 97 <= b <= 122)%N) by (intros HH; apply is_letter_spec in HH; congruence).
    apply is_letter_spec in Ea. split; [discriminate|lia].
  - assert (~ (65 <= a <= 90 \/ 97 <= a <= 122)%N) by (intros HH; apply is_letter_spec in HH; congruence).
    apply is_letter_spec in Eb. split; [discriminate|lia].
  - assert (~ (65 <= a <= 90 \/ 97 <= a <= 122)%N) by (intros HH; apply is_letter_spec in HH; congruence).
    assert (~ (65 <= b <= 90 \/ 97 <= b <= 122)%N) by (intros HH; apply is_letter_spec in HH; congruence).
    rewrite N.eqb_eq. lia.
Qed.
Lemma Forall2_ci v t : Forall2 (fun a b => eq_no_case a b = true) v t <-> same_ci v t.
Proof.
  unfold same_ci. split.
  - induction 1 as [|a b v t H _ IH]; [reflexivity|]. apply eq_no_case_spec in H. cbn. congruence.
  - revert t. induction v as [|a v IH]; intros [|b t] H; try discriminate; [constructor|].
    cbn in H. injection H as H1 H2. constructor; [now apply eq_no_case_spec|auto].
Qed.
Lemma tag_no_case_sound t : psound (tag_no_case t) (fun s x => s = x /\ same_ci s t).
Proof.
  intros i r x H. apply tag_with_sound in H. destruct H as (s & -> & -> & H).
  apply Forall2_ci in H. eauto.
Qed.
Lemma tag_no_case_app t v r : same_ci v t -> tag_no_case t (v ++ r) = Done r v.
Proof. intros H. apply tag_with_complete. now apply Forall2_ci. Qed.
Lemma upper_LF b : upper b = LF -> b = LF.
Proof.
  unfold upper. destruct ((97 <=? b)%N && (b <=? 122)%N) eqn:E; [|auto].
  apply andb_true_iff in E. destruct E as [E1 E2]. apply N.leb_le in E1, E2. unfold LF. lia.
Qed.
Lemma tag_no_case_term t : ~ In LF t -> pterm (tag_no_case t).
Proof.
  intros H. apply tag_with_term.
  - left. intros a b E Hb ->. apply eq_no_case_spec in E.
    symmetry in E. apply upper_LF in E. subst. auto.
  - intros b E. apply eq_no_case_spec in E. symmetry in E. now apply upper_LF in E.
Qed.
Lemma tag_no_case_fuel t : pfuel (tag_no_case t).
Proof. apply tag_with_fuel. Qed.

(** ** one_of, is_a, eat_separator *)
Lemma one_of_sound set : psound (one_of set) (fun s c => s = [c] /\ In c set).
Proof.
  intros [|c i] r x H; [discriminate|]. cbn in H. destruct (mem c set) eqn:E; [|discriminate].
  injection H as <- <-. exists [c]. split; [reflexivity|]. split; [reflexivity|]. now apply mem_In.
Qed.
Lemma one_of_app set c r : In c set -> one_of set (c :: r) = Done r c.
Proof. intros H. cbn. apply mem_In in H. now rewrite H. Qed.
Lemma one_of_Err set c r : ~ In c set -> one_of set (c :: r) = Err.
Proof. intros H. cbn. apply mem_not_In in H. now rewrite H. Qed.
Lemma one_of_fuel set : pfuel (one_of set).
Proof. intros [|c i]; [discriminate|]. cbn. destruct (mem c set); discriminate. Qed.
Lemma one_of_term set : pterm (one_of set).
Proof. intros [|c i] H; [now apply term_nil in H|]. cbn. destruct (mem c set); discriminate. Qed.

Lemma is_a_sound set i r x : is_a set i = Done r x ->
  i = x ++ r /\ over_set set x /\ (x = [] -> i = []) /\ stops (fun c => mem c set) r.
Proof.
  unfold is_a. destruct (span (fun c => mem c set) i) as [a r'] eqn:E.
  apply span_spec in E. destruct E as (E & Ha & Hr). apply over_set_mem in Ha.
  destruct a as [|c a]; [destruct r' as [|d r']|]; intros H; try discriminate;
    injection H as <- <-; subst i; repeat split; auto; discriminate.
Qed.
Lemma is_a_app set s r : s <> [] -> over_set set s -> stops (fun c => mem c set) r ->
  is_a set (s ++ r) = Done r s.
Proof.
  intros Hne Hs Hr. unfold is_a. rewrite span_app; [|now apply over_set_mem|exact Hr].
  destruct s; [congruence|reflexivity].
Qed.
Lemma is_a_Err set c r : ~ In c set -> is_a set (c :: r) = Err.
Proof. intros H. unfold is_a. cbn. apply mem_not_In in H. now rewrite H. Qed.
Lemma is_a_not_inc set i : is_a set i <> Incomplete.
Proof. unfold is_a. destruct (span _ i) as [[|? ?] [|? ?]]; discriminate. Qed.
Lemma is_a_fuel set : pfuel (is_a set).
Proof. intros i. unfold is_a. destruct (span _ i) as [[|? ?] [|? ?]]; discriminate. Qed.

Lemma eat_sound set i r x : eat_separator set i = Done r x ->
  i = x ++ r /\ over_set set x /\ stops (fun c => mem c set) r.
Proof.
  unfold eat_separator. destruct (span _ i) as [a r'] eqn:E. apply span_spec in E.
  destruct E as (-> & Ha & Hr). intros H. injection H as <- <-.
  repeat split; auto. now apply over_set_mem.
Qed.
Lemma eat_app set s r : over_set set s -> stops (fun c => mem c set) r ->
  eat_separator set (s ++ r) = Done r s.
Proof.
  intros Hs Hr. unfold eat_separator. rewrite span_app; auto. now apply over_set_mem.
Qed.
Lemma eat_done set i : exists r x, eat_separator set i = Done r x.
Proof. unfold eat_separator. destruct (span _ i) as [a r]. eauto. Qed.

(** ** take_until *)
Lemma find_sub_eq sub l :
  match find_sub sub l with
  | Some n => exists a b, l = a ++ sub ++ b /\ length a = n
  | None => ~ contains sub l
  end.
Proof.
  induction l as [|c l IH]; cbn [find_sub].
  - destruct (prefixb sub []) eqn:E.
    + apply prefixb_spec in E. destruct E as [r ->]. now exists [], r.
    + intros C. pose proof (contains_nil _ C). subst. discriminate.
  - destruct (prefixb sub (c :: l)) eqn:E.
    + apply prefixb_spec in E. destruct E as [r ->]. now exists [], r.
    + destruct (find_sub sub l) as [n|]; cbn [option_map].
      * destruct IH as (a & b & -> & <-). now exists (c :: a), b.
      * intros (u & v & C). destruct u as [|d u].
        -- cbn in C. rewrite (proj2 (prefixb_spec sub (c :: l))) in E; [discriminate|].
           exists v. exact C.
        -- cbn in C. injection C as -> C. apply IH. now exists u, v.
Qed.
Lemma take_until_crlf_sound i r x : take_until CRLF i = Done r x ->
  i = x ++ r /\ is_line x /\ exists b, r = CRLF ++ b.
Proof.
  unfold take_until. destruct (Nat.ltb _ _); [discriminate|].
  pose proof (find_sub_spec i) as P. destruct (find_sub CRLF i) as [n|]; [|discriminate].
  destruct P as (a & b & -> & <- & Ha). intros H. injection H as <- <-.
  rewrite skipn_app, skipn_all, Nat.sub_diag. rewrite firstn_app, firstn_all, Nat.sub_diag.
  cbn [skipn firstn app]. rewrite app_nil_r. repeat split; auto. exists b. reflexivity.
Qed.
Lemma take_until_crlf_app s r : is_line s -> take_until CRLF (s ++ CRLF ++ r) = Done (CRLF ++ r) s.
Proof.
  intros Hs. unfold take_until. rewrite !app_length. cbn [length CRLF].
  destruct (Nat.ltb_spec (length s + (2 + length r)) 2) as [H|H]; [lia|].
  pose proof (find_sub_spec (s ++ CRLF ++ r)) as P.
  destruct (find_sub CRLF (s ++ CRLF ++ r)) as [n|].
  - destruct P as (a & b & E & <- & Ha). apply first_crlf_unique in E; auto.
    destruct E as [<- <-].
    rewrite skipn_app, skipn_all, Nat.sub_diag. rewrite firstn_app, firstn_all, Nat.sub_diag.
    cbn [skipn firstn app]. now rewrite app_nil_r.
  - exfalso. apply P. now exists s, r.
Qed.
Lemma take_until_crlf_term : pterm (take_until CRLF).
Proof.
  intros i H. unfold take_until. apply term_len in H.
  destruct (Nat.ltb_spec (length i) (length CRLF)) as [C|C]; [cbn in C; lia|].
  destruct (find_sub CRLF i); discriminate.
Qed.
Lemma take_until_fuel sub : pfuel (take_until sub).
Proof.
  intros i. unfold take_until. destruct (Nat.ltb _ _); [discriminate|].
  destruct (find_sub sub i); discriminate.
Qed.
(** One-byte delimiter. *)
Lemma find_sub_one c l :
  match find_sub [c] l with
  | Some n => exists a b, l = a ++ [c] ++ b /\ length a = n /\ ~ In c a
  | None => ~ In c l
  end.
Proof.
  induction l as [|d l IH]; cbn [find_sub prefixb]; [intros []|].
  destruct (N.eqb_spec c d) as [<-|Hd]; cbn [andb].
  - exists [], l. repeat split; auto.
  - destruct (find_sub [c] l) as [n|]; cbn [option_map].
    + destruct IH as (a & b & -> & <- & Ha). exists (d :: a), b. repeat split; auto.
      intros [C|C]; congruence.
    + intros [C|C]; congruence.
Qed.
Lemma take_until_and_consume_sound c i r x : take_until_and_consume [c] i = Done r x ->
  i = x ++ [c] ++ r /\ ~ In c x.
Proof.
  unfold take_until_and_consume. destruct (Nat.ltb _ _); [discriminate|].
  pose proof (find_sub_one c i) as P. destruct (find_sub [c] i) as [n|]; [|discriminate].
  destruct P as (a & b & -> & <- & Ha). intros H. injection H as <- <-.
  rewrite firstn_app, firstn_all, Nat.sub_diag. rewrite skipn_app.
  rewrite skipn_all2 by (cbn; lia). cbn [length].
  replace (length a + 1 - length a) with 1 by lia. cbn [skipn firstn app].
  rewrite app_nil_r. auto.
Qed.
Lemma take_until_and_consume_app c s r : ~ In c s ->
  take_until_and_consume [c] (s ++ [c] ++ r) = Done r s.
Proof.
  intros Hs. unfold take_until_and_consume. rewrite !app_length. cbn [length].
  destruct (Nat.ltb_spec (length s + (1 + length r)) 1) as [H|H]; [lia|].
  pose proof (find_sub_one c (s ++ [c] ++ r)) as P.
  destruct (find_sub [c] (s ++ [c] ++ r)) as [n|].
  - destruct P as (a & b & E & <- & Ha).
    assert (a = s /\ b = r) as [-> ->].
    { clear H. revert s Hs E. induction a as [|d a IH]; intros s Hs E.
      - destruct s as [|e s]; cbn in E; [injection E; auto|]. injection E as <- E.
        exfalso. apply Hs. now left.
      - destruct s as [|e s]; cbn in E; injection E as -> E.
        + exfalso. apply Ha. now left.
        + destruct (IH (fun C => Ha (or_intror C)) s (fun C => Hs (or_intror C)) E). split; congruence. }
    rewrite firstn_app, firstn_all, Nat.sub_diag. rewrite skipn_app.
    rewrite skipn_all2 by lia. replace (length s + 1 - length s) with 1 by lia.
    cbn [skipn firstn app]. now rewrite app_nil_r.
  - exfalso. apply P. rewrite !in_app_iff. cbn. tauto.
Qed.
Lemma take_until_and_consume_term c : pterm (take_until_and_consume [c]).
Proof.
  intros i H. unfold take_until_and_consume. apply term_len in H.
  destruct (Nat.ltb_spec (length i) (length [c])) as [C|C]; [cbn in C; lia|].
  destruct (find_sub [c] i); discriminate.
Qed.
Lemma take_until_and_consume_fuel sub : pfuel (take_until_and_consume sub).
Proof.
  intros i. unfold take_until_and_consume. destruct (Nat.ltb _ _); [discriminate|].
  destruct (find_sub sub i); discriminate.
Qed.

(** ** recognize, complete, opt, alt *)
Lemma recognize_sound {A} (P : parser A) G : psound P G ->
  psound (recognize P) (fun s x => s = x /\ exists y, G s y).
Proof.
  intros H i r x E. unfold recognize in E. inv_bind E. injection E as <- <-.
  apply H in E0. destruct E0 as (s & -> & Hs). exists s. split; [reflexivity|].
  split; [|eauto]. rewrite app_length. replace (length s + length i0 - length i0) with (length s) by lia.
  rewrite firstn_app, firstn_all, Nat.sub_diag. cbn [firstn]. now rewrite app_nil_r.
Qed.
Lemma recognize_app {A} (P : parser A) s r y : P (s ++ r) = Done r y ->
  recognize P (s ++ r) = Done r s.
Proof.
  intros H. unfold recognize. rewrite H. cbn. f_equal. rewrite app_length.
  replace (length s + length r - length r) with (length s) by lia.
  rewrite firstn_app, firstn_all, Nat.sub_diag. cbn [firstn]. now rewrite app_nil_r.
Qed.
Lemma complete_Done {A} (P : parser A) i r x : complete P i = Done r x <-> P i = Done r x.
Proof. unfold complete. destruct (P i); split; congruence. Qed.
Lemma complete_inv {A} (P : parser A) i r x : complete P i = Done r x -> P i = Done r x.
Proof. apply complete_Done. Qed.
Lemma complete_sound {A} (P : parser A) G : psound P G -> psound (complete P) G.
Proof. intros H i r x E. exact (H i r x (proj1 (complete_Done _ _ _ _) E)). Qed.
Lemma complete_not_inc {A} (P : parser A) i : complete P i <> Incomplete.
Proof. unfold complete. destruct (P i); discriminate. Qed.
Lemma complete_fuel {A} (P : parser A) : pfuel P -> pfuel (complete P).
Proof. intros H i. unfold complete. specialize (H i). destruct (P i); congruence. Qed.
Lemma opt_fuel {A} (P : parser A) : pfuel P -> pfuel (opt P).
Proof. intros H i. unfold opt. specialize (H i). destruct (P i); congruence. Qed.
Lemma opt_inc {A} (P : parser A) i : P i <> Incomplete -> opt P i <> Incomplete.
Proof. unfold opt. destruct (P i); congruence. Qed.
Lemma alt_fuel {A} (P Q : parser A) : pfuel P -> pfuel Q -> pfuel (alt P Q).
Proof. intros H1 H2 i. unfold alt. specialize (H1 i). destruct (P i); try congruence; apply H2. Qed.
Lemma alt_term {A} (P Q : parser A) : pterm P -> pterm Q -> pterm (alt P Q).
Proof. intros H1 H2 i Hi. unfold alt. specialize (H1 i Hi). destruct (P i); try congruence; now apply H2. Qed.
Lemma alt_Done {A} (P Q : parser A) i r x : alt P Q i = Done r x ->
  P i = Done r x \/ (P i = Err /\ Q i = Done r x).
Proof. unfold alt. destruct (P i); auto; discriminate. Qed.
Lemma alt_first {A} (P Q : parser A) i r x : P i = Done r x -> alt P Q i = Done r x.
Proof. unfold alt. now intros ->. Qed.
Lemma alt_second {A} (P Q : parser A) i : P i = Err -> alt P Q i = Q i.
Proof. unfold alt. now intros ->. Qed.
Lemma opt_Done {A} (P : parser A) i r x : opt P i = Done r x ->
  (exists y, P i = Done r y /\ x = Some y) \/ (P i = Err /\ r = i /\ x = None).
Proof.
  unfold opt. destruct (P i); intros H; try discriminate; injection H as <- <-; eauto.
Qed.
Lemma opt_some {A} (P : parser A) i r x : P i = Done r x -> opt P i = Done r (Some x).
Proof. unfold opt. now intros ->. Qed.
Lemma opt_none {A} (P : parser A) i : P i = Err -> opt P i = Done i None.
Proof. unfold opt. now intros ->. Qed.

(** ** Separated lists *)
Section Sep.
Context {A B : Type} (sep : parser A) (P : parser B) (c : N) (G : bytes -> B -> Prop).
Hypothesis Hsep_s : psound sep (fun s _ => s = [c]).
Hypothesis HP_s : psound P G.

Lemma sep_loop_sound : forall fuel i r xs, sep_loop fuel sep P i = Done r xs ->
  exists ss, i = concat (map (cons c) ss) ++ r /\ Forall2 G ss xs.
Proof.
  induction fuel as [|fuel IH]; intros i r xs H; [discriminate|]. cbn [sep_loop] in H.
  assert (Hstop : Done i (@nil B) = Done r xs ->
    exists ss, i = concat (map (cons c) ss) ++ r /\ Forall2 G ss xs).
  { intros E. injection E as <- <-. exists []. split; [reflexivity|constructor]. }
  destruct (sep i) as [i2 y| | |] eqn:Es; try discriminate; auto.
  destruct (Nat.eqb _ _); auto.
  destruct (P i2) as [i3 x| | |] eqn:Ep; try discriminate; auto.
  destruct (Nat.eqb _ _); auto. inv_bind H. injection H as <- <-.
  apply Hsep_s in Es. destruct Es as (s & -> & ->).
  apply HP_s in Ep. destruct Ep as (t & -> & Ht).
  apply IH in E. destruct E as (ss & -> & Hss).
  exists (t :: ss). split; [cbn; now rewrite <- !app_assoc|]. constructor; auto.
Qed.
Lemma sep_loop_fuel : pfuel sep -> pfuel P ->
  forall fuel i, length i < fuel -> sep_loop fuel sep P i <> OutOfFuel.
Proof.
  intros H1 H2. induction fuel as [|fuel IH]; intros i Hf; [lia|]. cbn [sep_loop].
  specialize (H1 i). destruct (sep i) as [i2 y| | |] eqn:Es; try congruence.
  apply Hsep_s in Es. destruct Es as (s & -> & ->). cbn [app length] in *.
  destruct (Nat.eqb_spec (length i2) (S (length i2))); [discriminate|].
  specialize (H2 i2). destruct (P i2) as [i3 x| | |] eqn:Ep; try congruence.
  apply HP_s in Ep. destruct Ep as (t & -> & Ht). rewrite app_length in *.
  destruct (Nat.eqb _ _); [discriminate|].
  apply bind_fuel; [apply IH; lia|]. intros; discriminate.
Qed.
(** Success on a list, when element and separator parsers succeed. *)
Lemma sep_loop_complete (F T : bytes -> Prop) :
  forall fuel ss r,
  (forall u, exists y, sep (c :: u) = Done u y) ->
  (forall s u, T s -> F u -> exists x, P (s ++ u) = Done u x) -> (forall s, T s -> s <> []) ->
  (forall u, F (c :: u)) -> F r -> sep r = Err ->
  Forall T ss -> length (concat (map (cons c) ss) ++ r) < fuel ->
  exists xs, sep_loop fuel sep P (concat (map (cons c) ss) ++ r) = Done r xs.
Proof.
  induction fuel as [|fuel IH]; intros ss r Hs HP Hne HF Hr Hsr Hss Hf; [lia|].
  destruct Hss as [|s ss Hg Hss]; cbn [sep_loop].
  - exists []. cbn. now rewrite Hsr.
  - cbn [map concat]. rewrite <- app_assoc. cbn [app].
    destruct (Hs (s ++ concat (map (cons c) ss) ++ r)) as [y ->].
    destruct (Nat.eqb_spec (length (s ++ concat (map (cons c) ss) ++ r))
                (length (c :: s ++ concat (map (cons c) ss) ++ r))) as [C|_]; [cbn in C; lia|].
    destruct (HP s (concat (map (cons c) ss) ++ r) Hg) as [x ->].
    { destruct ss; [exact Hr|]. apply HF. }
    destruct (Nat.eqb_spec (length (concat (map (cons c) ss) ++ r))
                (length (s ++ concat (map (cons c) ss) ++ r))) as [C|_].
    { rewrite (app_length s) in C. apply Hne in Hg. destruct s; [congruence|]. cbn [length] in C. lia. }
    destruct (IH ss r) as [xs ->]; auto.
    + cbn [map concat] in Hf. rewrite <- app_assoc in Hf. cbn [app length] in Hf.
      rewrite (app_length s) in Hf. lia.
    + exists (x :: xs). reflexivity.
Qed.
Lemma sep_loop_inc : pterm P -> (forall s x, G s x -> okend s) -> c <> CR -> c <> LF ->
  pterm sep -> forall fuel i, term i -> sep_loop fuel sep P i <> Incomplete.
Proof.
  intros HP Hok Hc1 Hc2 Hs. induction fuel as [|fuel IH]; intros i Hi; [discriminate|]. cbn [sep_loop].
  specialize (Hs i Hi). destruct (sep i) as [i2 y| | |] eqn:Es; try congruence.
  apply Hsep_s in Es. destruct Es as (s & -> & ->).
  destruct (Nat.eqb _ _); [discriminate|].
  assert (Hi2 : term i2) by (apply (term_cons c); auto).
  specialize (HP i2 Hi2). destruct (P i2) as [i3 x| | |] eqn:Ep; try congruence.
  apply HP_s in Ep. destruct Ep as (t & -> & Ht).
  destruct (Nat.eqb _ _); [discriminate|].
  apply bind_inc; [|intros; discriminate]. apply IH. eapply term_suffix; eauto.
Qed.
Lemma sep_loop_never_inc : (forall i, sep i <> Incomplete) -> (forall i, P i <> Incomplete) ->
  forall fuel i, sep_loop fuel sep P i <> Incomplete.
Proof.
  intros Hs HP. induction fuel as [|fuel IH]; intros i; [discriminate|]. cbn [sep_loop].
  specialize (Hs i). destruct (sep i) as [i2 y| | |]; try congruence; try discriminate.
  destruct (Nat.eqb _ _); [discriminate|].
  specialize (HP i2). destruct (P i2) as [i3 x| | |]; try congruence; try discriminate.
  destruct (Nat.eqb _ _); [discriminate|]. apply bind_inc; [apply IH|]. intros; discriminate.
Qed.

Lemma snl_sound : psound (separated_nonempty_list sep P)
  (fun s xs => exists t ss, s = t ++ concat (map (cons c) ss) /\ Forall2 G (t :: ss) xs).
Proof.
  intros i r xs H. unfold separated_nonempty_list in H. inv_bind H.
  destruct (Nat.eqb _ _); [discriminate|]. inv_bind H. injection H as <- <-.
  apply HP_s in E. destruct E as (t & -> & Ht). apply sep_loop_sound in E0.
  destruct E0 as (ss & -> & Hss). exists (t ++ concat (map (cons c) ss)).
  split; [now rewrite <- app_assoc|]. exists t, ss. split; [reflexivity|]. constructor; auto.
Qed.
Lemma snl_fuel : pfuel sep -> pfuel P -> pfuel (separated_nonempty_list sep P).
Proof.
  intros H1 H2 i. unfold separated_nonempty_list. apply bind_fuel; [apply H2|].
  intros r x E. destruct (Nat.eqb _ _); [discriminate|]. apply bind_fuel.
  - apply sep_loop_fuel; auto.
  - intros; discriminate.
Qed.
Lemma snl_complete (F T : bytes -> Prop) : forall t ss r,
  (forall u, exists y, sep (c :: u) = Done u y) ->
  (forall s u, T s -> F u -> exists x, P (s ++ u) = Done u x) -> (forall s, T s -> s <> []) ->
  (forall u, F (c :: u)) -> F r -> sep r = Err ->
  Forall T (t :: ss) ->
  exists xs, separated_nonempty_list sep P ((t ++ concat (map (cons c) ss)) ++ r) = Done r xs.
Proof.
  intros t ss r Hs HP Hne HF Hr Hsr Hall. inversion Hall; subst. rewrite <- app_assoc.
  unfold separated_nonempty_list.
  destruct (HP t (concat (map (cons c) ss) ++ r)) as [x ->]; auto.
  { destruct ss; [exact Hr|]. apply HF. }
  cbn [bind].
  destruct (Nat.eqb_spec (length (concat (map (cons c) ss) ++ r))
                (length (t ++ concat (map (cons c) ss) ++ r))) as [C|_].
  { rewrite (app_length t) in C. apply Hne in H1. destruct t; [congruence|]. cbn [length] in C. lia. }
  destruct (sep_loop_complete F T (S (length (concat (map (cons c) ss) ++ r))) ss r) as [xs ->]; auto.
  exists (x :: xs). reflexivity.
Qed.
Lemma snl_Err i : P i = Err -> separated_nonempty_list sep P i = Err.
Proof. unfold separated_nonempty_list. now intros ->. Qed.
Lemma snl_never_inc : (forall i, sep i <> Incomplete) -> (forall i, P i <> Incomplete) ->
  forall i, separated_nonempty_list sep P i <> Incomplete.
Proof.
  intros Hs HP i. unfold separated_nonempty_list. apply bind_inc; [apply HP|].
  intros r x E. destruct (Nat.eqb _ _); [discriminate|]. apply bind_inc; [|intros; discriminate].
  now apply sep_loop_never_inc.
Qed.
Lemma slist_sound : psound (separated_list sep P)
  (fun s xs => (s = [] /\ xs = [])
    \/ exists t ss, s = t ++ concat (map (cons c) ss) /\ Forall2 G (t :: ss) xs).
Proof.
  intros i r xs H. unfold separated_list in H.
  destruct (P i) as [i2 x| | |] eqn:E; try discriminate.
  - destruct (Nat.eqb _ _); [discriminate|]. inv_bind H. injection H as <- <-.
    apply HP_s in E. destruct E as (t & -> & Ht). apply sep_loop_sound in E0.
    destruct E0 as (ss & -> & Hss). exists (t ++ concat (map (cons c) ss)).
    split; [now rewrite <- app_assoc|]. right. exists t, ss. split; [reflexivity|]. constructor; auto.
  - injection H as <- <-. exists []. auto.
Qed.
Lemma slist_fuel : pfuel sep -> pfuel P -> pfuel (separated_list sep P).
Proof.
  intros H1 H2 i. unfold separated_list. specialize (H2 i) as H3.
  destruct (P i) as [r x| | |]; try congruence; try discriminate.
  destruct (Nat.eqb _ _); [discriminate|]. apply bind_fuel; [|intros; discriminate].
  apply sep_loop_fuel; auto.
Qed.
Lemma slist_term : pterm P -> (forall s x, G s x -> okend s) -> c <> CR -> c <> LF ->
  pterm sep -> pterm (separated_list sep P).
Proof.
  intros H1 H2 Hc1 Hc2 H3 i Hi. unfold separated_list. specialize (H1 i Hi) as H4.
  destruct (P i) as [r x| | |] eqn:E; try congruence; try discriminate.
  destruct (Nat.eqb _ _); [discriminate|]. apply bind_inc; [|intros; discriminate].
  apply sep_loop_inc; auto. apply HP_s in E. destruct E as (t & -> & Ht). eapply term_suffix; eauto.
Qed.
Lemma slist_complete (F T : bytes -> Prop) : forall t ss r,
  (forall u, exists y, sep (c :: u) = Done u y) ->
  (forall s u, T s -> F u -> exists x, P (s ++ u) = Done u x) -> (forall s, T s -> s <> []) ->
  (forall u, F (c :: u)) -> F r -> sep r = Err ->
  Forall T (t :: ss) ->
  exists xs, separated_list sep P ((t ++ concat (map (cons c) ss)) ++ r) = Done r xs.
Proof.
  intros t ss r Hs HP Hne HF Hr Hsr Hall. inversion Hall; subst. rewrite <- app_assoc.
  unfold separated_list.
  destruct (HP t (concat (map (cons c) ss) ++ r)) as [x ->]; auto.
  { destruct ss; [exact Hr|]. apply HF. }
  destruct (Nat.eqb_spec (length (concat (map (cons c) ss) ++ r))
                (length (t ++ concat (map (cons c) ss) ++ r))) as [C|_].
  { rewrite (app_length t) in C. apply Hne in H1. destruct t; [congruence|]. cbn [length] in C. lia. }
  destruct (sep_loop_complete F T (S (length (concat (map (cons c) ss) ++ r))) ss r) as [xs ->]; auto.
  exists (x :: xs). reflexivity.
Qed.
End Sep.

Lemma intercalate_cons c s ss : intercalate [c] (s :: ss) = s ++ concat (map (cons c) ss).
Proof.
  revert s. induction ss as [|t ss IH]; intros s; cbn [intercalate map concat].
  - now rewrite app_nil_r.
  - f_equal. cbn [app]. f_equal. exact (IH t).
Qed.

(** ** many0 *)
Section Many.
Context {A : Type} (P : parser A) (G : bytes -> A -> Prop).
Hypothesis HP_s : psound P G.
Lemma many0_loop_sound : forall fuel i r xs, many0_loop fuel P i = Done r xs ->
  exists ss, i = concat ss ++ r /\ Forall2 G ss xs.
Proof.
  induction fuel as [|fuel IH]; intros i r xs H; [discriminate|]. cbn [many0_loop] in H.
  destruct i as [|c i].
  - injection H as <- <-. exists []. split; [reflexivity|constructor].
  - destruct (P (c :: i)) as [i2 y| | |] eqn:Es; try discriminate.
    + destruct (Nat.eqb _ _); [discriminate|]. inv_bind H. injection H as <- <-.
      apply HP_s in Es. destruct Es as (s & Es & Hs). apply IH in E.
      destruct E as (ss & -> & Hss). exists (s :: ss). split; [cbn; now rewrite <- app_assoc|].
      constructor; auto.
    + injection H as <- <-. exists []. split; [reflexivity|constructor].
Qed.
Lemma many0_loop_fuel : pfuel P -> forall fuel i, length i < fuel -> many0_loop fuel P i <> OutOfFuel.
Proof.
  intros H2. induction fuel as [|fuel IH]; intros i Hf; [lia|]. cbn [many0_loop].
  destruct i as [|c i]; [discriminate|].
  specialize (H2 (c :: i)). destruct (P (c :: i)) as [i3 x| | |] eqn:Ep; try congruence.
  apply HP_s in Ep. destruct Ep as (t & E & Ht). rewrite E in *. rewrite app_length in *.
  destruct (Nat.eqb_spec (length i3) (length t + length i3)); [discriminate|].
  apply bind_fuel; [apply IH; lia|]. intros; discriminate.
Qed.
Lemma many0_loop_complete : forall fuel ss xs r,
  (forall s x u, G s x -> (u = r \/ exists s' x' u', G s' x' /\ u = s' ++ u') -> P (s ++ u) = Done u x) ->
  (forall s x, G s x -> s <> []) -> (P r = Err \/ r = []) ->
  Forall2 G ss xs -> length (concat ss ++ r) < fuel ->
  many0_loop fuel P (concat ss ++ r) = Done r xs.
Proof.
  induction fuel as [|fuel IH]; intros ss xs r HP Hne Hr Hss Hf; [lia|].
  destruct Hss as [|s x ss xs Hg Hss]; cbn [many0_loop].
  - cbn. destruct r as [|c r]; [reflexivity|]. destruct Hr as [->|Hr]; [reflexivity|discriminate].
  - cbn [concat] in *. rewrite <- app_assoc in *.
    assert (Hs : P (s ++ concat ss ++ r) = Done (concat ss ++ r) x).
    { apply HP; [exact Hg|]. destruct Hss as [|s' x' ss xs Hg' Hss]; [now left|].
      right. exists s', x', (concat ss ++ r). split; [exact Hg'|]. cbn. now rewrite <- app_assoc. }
    assert (s <> []) by eauto.
    destruct (s ++ concat ss ++ r) as [|c u] eqn:E; [destruct s; [congruence|discriminate]|].
    rewrite Hs. rewrite <- E in *.
    destruct (Nat.eqb_spec (length (concat ss ++ r)) (length (s ++ concat ss ++ r))) as [C|_].
    { rewrite (app_length s) in C. destruct s; [congruence|]. cbn in C. lia. }
    rewrite (IH ss xs r); auto. rewrite (app_length s) in Hf. destruct s; [congruence|]. cbn in Hf. lia.
Qed.
Lemma many0_loop_inc : pterm P -> (forall s x, G s x -> okend s) ->
  forall fuel i, term i -> many0_loop fuel P i <> Incomplete.
Proof.
  intros HP Hok. induction fuel as [|fuel IH]; intros i Hi; [discriminate|]. cbn [many0_loop].
  destruct i as [|c i]; [discriminate|].
  specialize (HP (c :: i) Hi). destruct (P (c :: i)) as [i3 x| | |] eqn:Ep; try congruence; try discriminate.
  apply HP_s in Ep. destruct Ep as (t & E & Ht). rewrite E in *.
  destruct (Nat.eqb _ _); [discriminate|].
  apply bind_inc; [|intros; discriminate]. apply IH. eapply term_suffix; eauto.
Qed.
End Many.

Lemma nom_to_result_Ok {A} (d : iresult A) x : nom_to_result d = POk x <-> d = Done [] x.
Proof.
  destruct d as [[|c r] y| | |]; cbn; split; intros H; congruence.
Qed.
Lemma nom_to_result_fuel {A} (d : iresult A) : nom_to_result d = POutOfFuel <-> d = OutOfFuel.
Proof.
  destruct d as [[|c r] y| | |]; cbn; split; intros H; congruence.
Qed.
Lemma nom_to_result_inc {A} (d : iresult A) : nom_to_result d = PIncompleteString <-> d = Incomplete.
Proof.
  destruct d as [[|c r] y| | |]; cbn; split; intros H; congruence.
Qed.
