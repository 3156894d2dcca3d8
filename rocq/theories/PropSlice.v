(** C55: the parsers never panic, and parse a [ByteSlice] as they parse its bytes. *)
From Coq Require Import ZArith.
From Verif Require Import Bytes Nom Ip IpProofs Message Reply ByteSlice SpecSlice PropByteSlice SliceParser.
Local Open Scope nat_scope.

(** ** The macros *)
Lemma pmapp_agree A B C D (R : bslice -> A -> C -> Prop) (Q : bslice -> B -> D -> Prop)
    (p : bparser A) (p' : parser C) f f' : agree R p p' ->
  (forall i x y, R i x y -> exists z, f x = Some z /\ Q i z (f' y)) -> agree Q (b_pmapp p f) (pmap p' f').
Proof.
  intros Hp Hf i v H. specialize (Hp i v H). unfold b_pmapp, pmap.
  destruct (p i) as [i1 x| | | |], (p' v) as [v1 y| | |]; cbn in *; try contradiction; auto.
  destruct Hp as (L & D1 & HR). destruct (Hf i x y HR) as (z & -> & HQ). cbn. auto.
Qed.
Lemma verifyp_agree A B (R : bslice -> A -> B -> Prop) (p : bparser A) (p' : parser B) f f' : agree R p p' ->
  (forall i x y, R i x y -> f x = Some (f' y) \/ exists v r, p' v = Done r y /\ f x = Some (f' y)) ->
  agree R (b_verifyp p f) (verify p' f').
Proof.
  intros Hp Hf i v H. specialize (Hp i v H). unfold b_verifyp, verify.
  destruct (p i) as [i1 x| | | |], (p' v) as [v1 y| | |]; cbn in *; try contradiction; auto.
  destruct Hp as (L & D1 & HR). assert (E : f x = Some (f' y)) by (destruct (Hf _ _ _ HR) as [?|(? & ? & _ & ?)]; auto).
  rewrite E. destruct (f' y); cbn; auto.
Qed.
Lemma preceded_agree A B C D (R : bslice -> A -> C -> Prop) (Q : bslice -> B -> D -> Prop)
    (p : bparser A) (p' : parser C) (q : bparser B) (q' : parser D) : still Q ->
  agree R p p' -> agree Q q q' -> agree Q (b_preceded p q) (preceded p' q').
Proof.
  intros HQ Hp Hq. unfold b_preceded, preceded.
  exact (C46_parse_seq _ _ _ _ R Q p p' (fun _ => q) (fun _ => q') HQ Hp (fun _ _ _ _ => Hq)).
Qed.
Lemma ret_agree A B (Q : bslice -> A -> B -> Prop) x y : (forall i, Q i x y) -> agree Q (b_ret (Some x)) (fun i => Done i y).
Proof. intros HQ i v H. cbn. split; [eapply later_refl; eauto|auto]. Qed.
Lemma many0_loop_agree A B (R : bslice -> A -> B -> Prop) (p : bparser A) (p' : parser B) : still R -> agree R p p' ->
  forall fuel, agree (fun i => Forall2 (R i)) (b_many0_loop fuel p) (many0_loop fuel p').
Proof.
  intros HR Hp. induction fuel as [|fuel IH]; intros i v H; cbn [b_many0_loop many0_loop]; [exact I|].
  destruct (C46_accessors_exact i v H) as (_ & _ & -> & _). destruct v as [|c v].
  { cbn. split; [eapply later_refl; eauto|auto]. }
  cbn [length Nat.eqb]. pose proof (Hp i _ H) as K. destruct (p i) as [i1 x| | | |], (p' (c :: v)) as [v1 y| | |]; cbn [same_result] in *; try contradiction; auto.
  2: { split; [eapply later_refl; eauto|auto]. }
  destruct K as (L & D1 & R1). rewrite (later_eq _ _ _ _ L H D1). cbn [length].
  destruct (length v1 =? S (length v)); [exact I|].
  specialize (IH i1 v1 D1). destruct (b_many0_loop fuel p i1) as [i3 zs| | | |], (many0_loop fuel p' v1) as [v3 ws| | |]; cbn [same_result bbind bind] in *; try contradiction; auto.
  destruct IH as (L3 & D3 & R3). split; [eapply later_trans; eauto|]. split; [exact D3|]. constructor; [exact R1|].
  eapply Forall2_impl; [|exact R3]. intros. eapply HR; eauto.
Qed.
Lemma many0_agree A B (R : bslice -> A -> B -> Prop) (p : bparser A) (p' : parser B) : still R -> agree R p p' ->
  agree (fun i => Forall2 (R i)) (b_many0 p) (many0 p').
Proof.
  intros HR Hp i v H. unfold b_many0, many0. destruct (C46_accessors_exact i v H) as (_ & _ & -> & _).
  exact (many0_loop_agree A B R p p' HR Hp (S (length v)) i v H).
Qed.
Lemma sep_complete_agree A B C D (R : bslice -> A -> C -> Prop) (Q : bslice -> B -> D -> Prop)
    (s : bparser A) (s' : parser C) (p : bparser B) (p' : parser D) : still Q -> agree R s s' -> agree Q p p' ->
  agree (fun i => Forall2 (Q i)) (b_separated_nonempty_list_complete s p) (separated_nonempty_list_complete s' p').
Proof.
  intros HQ Hs Hp. apply (C46_parse_separated_nonempty_list _ _ _ _ R Q); auto; now apply C46_parse_complete.
Qed.
Lemma tag_agree t : agree shows_bytes (b_tag t) (tag t).
Proof. apply C46_parse_tag. Qed.
Lemma tag_no_case_agree t : agree shows_bytes (b_tag_no_case t) (tag_no_case t).
Proof. apply C46_parse_tag. Qed.
Lemma spaces_agree : agree shows_bytes b_eat_spaces eat_spaces.
Proof. apply C46_parse_eat_separator. Qed.
Lemma promote_shows i b v : shows_bytes i b v -> promote b = Some v.
Proof. intros H. exact H. Qed.

(** ** UTF-8: what is not ASCII is no address and no number *)
Lemma ascii_utf8 s : Forall (fun c => (c < 128)%N) s -> utf8_ok s = true.
Proof.
  induction 1 as [|c s H _ IH]; [reflexivity|]. cbn [utf8_ok]. destruct (N.ltb_spec c 128); [exact IH|lia].
Qed.
Definition eats (s r : bytes) : Prop := exists d, s = d ++ r /\ Forall (fun c => (c < 128)%N) d.
Lemma eats_refl s : eats s s.
Proof. exists []. split; [reflexivity|constructor]. Qed.
Lemma eats_trans a b c : eats a b -> eats b c -> eats a c.
Proof. intros (d & -> & H) (e & -> & K). exists (d ++ e). rewrite app_assoc. split; [reflexivity|]. now apply Forall_app. Qed.
Lemma digit_ascii radix c d : (radix <= 16)%N -> parse_digit radix c = Some d -> (c < 128)%N.
Proof.
  intros Hr. unfold parse_digit. destruct ((48 <=? c)%N && (c <=? 57)%N) eqn:E.
  { apply andb_true_iff in E as [_ E]. apply N.leb_le in E. lia. }
  destruct ((10 <? radix)%N && (97 <=? c)%N && (c <? 97 + (radix - 10))%N) eqn:E1.
  { apply andb_true_iff in E1 as [_ E1]. apply N.ltb_lt in E1. lia. }
  destruct ((10 <? radix)%N && (65 <=? c)%N && (c <? 65 + (radix - 10))%N) eqn:E2; [|discriminate].
  apply andb_true_iff in E2 as [_ E2]. apply N.ltb_lt in E2. lia.
Qed.
Lemma read_loop_eats radix maxd upto : (radix <= 16)%N -> forall s acc count v r,
  read_number_loop radix maxd upto s acc count = Some (v, r) -> eats s r.
Proof.
  intros Hr. induction s as [|c s IH]; intros acc count v r; cbn [read_number_loop].
  - destruct (count =? 0); [discriminate|]. intros [= _ <-]. apply eats_refl.
  - destruct (parse_digit radix c) as [d|] eqn:E.
    + destruct (_ || _); [discriminate|]. intros H. apply IH in H. eapply eats_trans; [|exact H].
      exists [c]. split; [reflexivity|]. constructor; [eapply digit_ascii; eauto|constructor].
    + destruct (count =? 0); [discriminate|]. intros [= _ <-]. apply eats_refl.
Qed.
Lemma read_number_eats radix maxd upto s v r : (radix <= 16)%N -> read_number radix maxd upto s = Some (v, r) -> eats s r.
Proof. intros Hr. apply (read_loop_eats radix maxd upto Hr). Qed.
Lemma given_char_eats c s r : (c < 128)%N -> read_given_char c s = Some r -> eats s r.
Proof.
  destruct s as [|x s]; cbn; [discriminate|]. intros Hc. destruct (N.eqb_spec x c) as [->|]; [|discriminate]. intros [= ->].
  exists [c]. split; [reflexivity|]. now repeat constructor.
Qed.
Lemma ipv4_eats s a r : read_ipv4_addr s = Some (a, r) -> eats s r.
Proof.
  unfold read_ipv4_addr. intros H.
  repeat match type of H with
  | match ?e with Some _ => _ | None => None end = Some _ => let E := fresh "E" in destruct e as [?|] eqn:E; [|discriminate H]
  | (let '(_, _) := ?p in _) = Some _ => destruct p
  end.
  all: injection H as _ <-.
  all: repeat match goal with
  | E : read_number _ _ _ _ = Some _ |- _ => apply read_number_eats in E; [|lia]
  | E : read_given_char _ _ = Some _ |- _ => apply given_char_eats in E; [|lia]
  end.
  all: repeat (eapply eats_trans; [eassumption|]); apply eats_refl.
Qed.
Lemma skip_colon_eats f s r : skip_colon f s = Some r -> eats s r.
Proof. unfold skip_colon. destruct f; [intros [= ->]; apply eats_refl|]. apply given_char_eats. lia. Qed.
Lemma groups_eats : forall n f s gs v r, read_groups n f s = (gs, v, r) -> eats s r.
Proof.
  induction n as [|n IH]; intros f s gs v r; cbn [read_groups]; [intros [= _ _ <-]; apply eats_refl|].
  destruct (match n with O => None | S _ => _ end) as [[[[[a b] c] d] s']|] eqn:E.
  - intros [= _ _ <-]. destruct n; [discriminate|]. destruct (skip_colon f s) as [s1|] eqn:E1; [|discriminate].
    eapply eats_trans; [eapply skip_colon_eats; eauto|]. eapply ipv4_eats; eauto.
  - clear E. destruct (skip_colon f s) as [s1|] eqn:E1; [|intros [= _ _ <-]; apply eats_refl].
    destruct (read_number 16 4 65536 s1) as [[g s2]|] eqn:E2; [|intros [= _ _ <-]; apply eats_refl].
    destruct (read_groups n false s2) as [[gs' v'] r'] eqn:E3. intros [= _ _ <-].
    eapply eats_trans; [eapply skip_colon_eats; eauto|]. eapply eats_trans; [eapply read_number_eats; [|eauto]; lia|].
    eapply IH; eauto.
Qed.
Lemma ipv6_eats s a r : read_ipv6_addr s = Some (a, r) -> eats s r.
Proof.
  unfold read_ipv6_addr. destruct (read_groups 8 true s) as [[h v] s1] eqn:E. apply groups_eats in E.
  destruct (length h =? 8); [intros [= _ <-]; exact E|]. destruct v; [discriminate|].
  destruct (read_given_char 58 s1) as [s2|] eqn:E1; [|discriminate].
  destruct (read_given_char 58 s2) as [s3|] eqn:E2; [|discriminate].
  destruct (read_groups _ true s3) as [[t v4] s4] eqn:E3. intros [= _ <-].
  apply given_char_eats in E1; [|lia]. apply given_char_eats in E2; [|lia]. apply groups_eats in E3.
  eauto using eats_trans.
Qed.
Lemma eats_all s : eats s [] -> utf8_ok s = true.
Proof. intros (d & -> & H). rewrite app_nil_r. now apply ascii_utf8. Qed.
Lemma ipv4_utf8 s a : ipv4_from_str s = Some a -> utf8_ok s = true.
Proof.
  unfold ipv4_from_str. destruct (read_ipv4_addr s) as [[b [|? ?]]|] eqn:E; try discriminate. intros _.
  apply eats_all. eapply ipv4_eats; eauto.
Qed.
Lemma ipv6_utf8 s a : ipv6_from_str s = Some a -> utf8_ok s = true.
Proof.
  unfold ipv6_from_str. destruct (read_ipv6_addr s) as [[b [|? ?]]|] eqn:E; try discriminate. intros _.
  apply eats_all. eapply ipv6_eats; eauto.
Qed.
Lemma u16_digits_ascii : forall s acc n, u16_digits s acc = Some n -> Forall (fun c => (c < 128)%N) s.
Proof.
  induction s as [|c s IH]; intros acc n; cbn [u16_digits]; [constructor|].
  destruct ((48 <=? c)%N && (c <=? 57)%N) eqn:E; [|discriminate]. destruct (65535 <? _)%N; [discriminate|].
  intros H. constructor; [|eapply IH; eauto]. apply andb_true_iff in E as [_ E]. apply N.leb_le in E. lia.
Qed.
Lemma u16_utf8 s n : u16_from_str s = Some n -> utf8_ok s = true.
Proof.
  unfold u16_from_str. intros H. apply ascii_utf8.
  assert (K : Forall (fun c => (c < 128)%N) (match s with 43%N :: s' => s' | _ => s end)).
  { destruct (match s with 43%N :: s' => s' | _ => s end) as [|c d] eqn:E; [constructor|]. eapply u16_digits_ascii; eauto. }
  clear H. destruct s as [|c s]; [constructor|]. destruct (N.eq_dec c 43) as [->|Hc]; [constructor; [lia|exact K]|].
  assert (E : (match c :: s with 43%N :: s' => s' | _ => c :: s end) = c :: s).
  { destruct c as [|p]; [reflexivity|]. do 6 (destruct p as [p|p|]; try reflexivity); now elim Hc. }
  rewrite E in K. exact K.
Qed.
(** [map_res!(map_res!(p, into_utf8), f)], when [f] accepts UTF-8 only *)
Lemma utf8_agree B (p : bparser bslice) (p' : parser bytes) (f : bytes -> option B) : agree shows_bytes p p' ->
  (forall s y, f s = Some y -> utf8_ok s = true) -> agree same (b_map_res (b_map_resp p into_utf8) f) (map_res p' f).
Proof.
  intros Hp Hf i v H. specialize (Hp i v H). unfold b_map_res, b_map_resp, map_res.
  destruct (p i) as [i1 x| | | |], (p' v) as [v1 y| | |]; cbn in *; try contradiction; auto.
  destruct Hp as (L & D1 & HR). unfold into_utf8. unfold shows_bytes in HR. rewrite HR. cbn.
  destruct (utf8_ok y) eqn:E; cbn; [destruct (f y); cbn; auto; repeat split; auto; apply L|].
  destruct (f y) eqn:E2; [apply Hf in E2; congruence|exact I].
Qed.

(** ** [utf8_ok] accepts exactly the encodings of sequences of Unicode scalar values *)
Ltac euclid := zify; Z.to_euclidean_division_equations; lia.
Ltac rng := unfold second_of_3, second_of_4, cont, in_range in *;
  repeat match goal with
  | |- context[(?a =? ?b)%N] => destruct (N.eqb_spec a b)
  | |- context[(?a <? ?b)%N] => destruct (N.ltb_spec a b)
  | |- context[(?a <=? ?b)%N] => destruct (N.leb_spec a b)
  end; cbn [andb]; try reflexivity; try euclid.
Lemma utf8_encode_ok c s : scalar c -> utf8_ok (utf8_encode c ++ s) = utf8_ok s.
Proof.
  intros (H & H'). unfold utf8_encode.
  destruct (N.ltb_spec c 128); [cbn; destruct (N.ltb_spec c 128); [reflexivity|lia]|].
  destruct (N.ltb_spec c 2048).
  { cbn [app utf8_ok]. rewrite (proj2 (N.ltb_ge _ _)) by euclid.
    replace (in_range 194 223 (192 + c / 64)) with true by (symmetry; rng).
    replace (cont (128 + c mod 64)) with true by (symmetry; rng). reflexivity. }
  destruct (N.ltb_spec c 65536).
  { cbn [app utf8_ok]. rewrite (proj2 (N.ltb_ge _ _)) by euclid.
    replace (in_range 194 223 (224 + c / 4096)) with false by (symmetry; rng).
    replace (in_range 224 239 (224 + c / 4096)) with true by (symmetry; rng).
    replace (second_of_3 (224 + c / 4096) (128 + (c / 64) mod 64)) with true by (symmetry; rng).
    replace (cont (128 + c mod 64)) with true by (symmetry; rng). reflexivity. }
  cbn [app utf8_ok]. rewrite (proj2 (N.ltb_ge _ _)) by euclid.
  replace (in_range 194 223 (240 + c / 262144)) with false by (symmetry; rng).
  replace (in_range 224 239 (240 + c / 262144)) with false by (symmetry; rng).
  replace (in_range 240 244 (240 + c / 262144)) with true by (symmetry; rng).
  replace (second_of_4 (240 + c / 262144) (128 + (c / 4096) mod 64)) with true by (symmetry; rng).
  replace (cont (128 + (c / 64) mod 64)) with true by (symmetry; rng).
  replace (cont (128 + c mod 64)) with true by (symmetry; rng). reflexivity.
Qed.
Ltac unrng H := unfold second_of_3, second_of_4, cont, in_range in H;
  repeat match type of H with context[(?a =? ?b)%N] => destruct (N.eqb_spec a b) end;
  repeat rewrite andb_true_iff in H; repeat rewrite N.leb_le in H.
Lemma utf8_decode n : forall s, length s <= n -> utf8_ok s = true -> exists cs, Forall scalar cs /\ s = flat_map utf8_encode cs.
Proof.
  assert (K : forall c s t, scalar c -> (exists cs, Forall scalar cs /\ t = flat_map utf8_encode cs) -> s = utf8_encode c ++ t ->
    exists cs, Forall scalar cs /\ s = flat_map utf8_encode cs).
  { intros c s t Hc (cs & F & ->) ->. exists (c :: cs). split; [now constructor|reflexivity]. }
  induction n as [|n IH]; intros s Hn H.
  { destruct s; [|cbn in Hn; lia]. exists []. split; [constructor|reflexivity]. }
  destruct s as [|a s]; [exists []; split; [constructor|reflexivity]|]. cbn [length] in Hn. cbn [utf8_ok] in H.
  destruct (N.ltb_spec a 128).
  { apply (K a _ s); [split; lia|apply IH; [lia|exact H]|]. unfold utf8_encode. destruct (N.ltb_spec a 128); [reflexivity|lia]. }
  destruct s as [|b s]; [discriminate|]. cbn [length] in Hn.
  destruct (in_range 194 223 a) eqn:E1.
  { apply andb_true_iff in H as [Hb H]. unrng E1. unrng Hb.
    apply (K ((a - 192) * 64 + (b - 128))%N _ s); [split; lia|apply IH; [lia|exact H]|].
    unfold utf8_encode. rewrite (proj2 (N.ltb_ge _ _)) by lia. rewrite (proj2 (N.ltb_lt _ 2048)) by lia.
    cbn [app]. f_equal; [euclid|]. f_equal. euclid. }
  destruct s as [|c s]; [discriminate|]. cbn [length] in Hn.
  destruct (in_range 224 239 a) eqn:E2.
  { apply andb_true_iff in H as [Hb H]. apply andb_true_iff in Hb as [Hb Hc]. clear E1. unrng E2. unrng Hc.
    assert (B : (128 <= b <= 191)%N /\ (a = 224 -> 160 <= b)%N /\ (a = 237 -> b <= 159)%N).
    { unrng Hb; subst; repeat split; intros; try lia. }
    apply (K ((a - 224) * 4096 + (b - 128) * 64 + (c - 128))%N _ s); [split; lia|apply IH; [lia|exact H]|].
    unfold utf8_encode. rewrite (proj2 (N.ltb_ge _ _)) by lia. rewrite (proj2 (N.ltb_ge _ _)) by lia.
    rewrite (proj2 (N.ltb_lt _ 65536)) by lia.
    cbn [app]. f_equal; [euclid|]. f_equal; [euclid|]. f_equal. euclid. }
  destruct s as [|d s]; [discriminate|]. cbn [length] in Hn.
  apply andb_true_iff in H as [Hb H]. apply andb_true_iff in Hb as [Hb Hd]. apply andb_true_iff in Hb as [Hb Hc].
  apply andb_true_iff in Hb as [Ha Hb]. clear E1 E2. unrng Ha. unrng Hc. unrng Hd.
  assert (B : (128 <= b <= 191)%N /\ (a = 240 -> 144 <= b)%N /\ (a = 244 -> b <= 143)%N).
  { unrng Hb; subst; repeat split; intros; try lia. }
  apply (K ((a - 240) * 262144 + (b - 128) * 4096 + (c - 128) * 64 + (d - 128))%N _ s); [split; lia|apply IH; [lia|exact H]|].
  unfold utf8_encode. rewrite (proj2 (N.ltb_ge _ _)) by lia. rewrite (proj2 (N.ltb_ge _ _)) by lia.
  rewrite (proj2 (N.ltb_ge _ _)) by lia.
  cbn [app]. f_equal; [euclid|]. f_equal; [euclid|]. f_equal; [euclid|]. f_equal. euclid.
Qed.
Theorem C55_utf8_exact : forall b v, demote b = Some v ->
  (into_utf8 b = Some (Some v) <-> exists cs, Forall scalar cs /\ v = flat_map utf8_encode cs)
  /\ (into_utf8 b = Some None <-> ~ exists cs, Forall scalar cs /\ v = flat_map utf8_encode cs).
Proof.
  intros b v H. unfold into_utf8. rewrite H. cbn [option_map].
  assert (K : utf8_ok v = true <-> exists cs, Forall scalar cs /\ v = flat_map utf8_encode cs).
  { split; [apply utf8_decode with (n := length v); lia|]. intros (cs & F & ->). clear H.
    induction F as [|c cs Hc _ IH]; [reflexivity|]. cbn [flat_map]. rewrite utf8_encode_ok; [|exact Hc]. exact IH. }
  destruct (utf8_ok v).
  - split; [split; [intros _; now apply K|reflexivity]|]. split; [discriminate|]. intros N. elim N. now apply K.
  - split; [split; [discriminate|intros X; apply K in X; discriminate]|]. split; [|reflexivity].
    intros _ X. apply K in X. discriminate.
Qed.

(** ** The parsers *)
Lemma label_agree : agree (fun i x y => match x, y with Some a, Some b => shows_bytes i a b | None, None => True | _, _ => False end) b_label label.
Proof.
  apply (preceded_agree _ _ _ _ same); [|apply C46_parse_one_of|apply C46_parse_opt, C46_parse_is_a].
  intros i i' [x|] [y|] _ K; exact K.
Qed.
Lemma label_still : still (fun i x y => match x, y with Some a, Some b => shows_bytes i a b | None, None => True | _, _ => False end).
Proof. intros i i' [x|] [y|] _ K; exact K. Qed.
Theorem C55_hostname : agree same b_hostname hostname.
Proof.
  apply C46_parse_alt; [|apply C46_parse_alt].
  - apply (pmapp_agree _ _ _ _ shows_bytes).
    + eapply C46_parse_recognize. eapply sep_complete_agree; [apply label_still|apply tag_agree|apply label_agree].
    + intros i x y H. exists (Host y). rewrite (promote_shows _ _ _ H). split; reflexivity.
  - apply utf8_agree.
    + eapply preceded_agree; [apply shows_still|apply tag_agree|apply C46_parse_take_until_and_consume].
    + intros s y H. destruct (ipv6_from_str s) eqn:E; [|discriminate]. eapply ipv6_utf8; eauto.
  - apply utf8_agree.
    + eapply preceded_agree; [apply shows_still|apply tag_agree|apply C46_parse_take_until_and_consume].
    + intros s y H. destruct (ipv4_from_str s) eqn:E; [|discriminate]. eapply ipv4_utf8; eauto.
Qed.
(** [verify!(take!(1), |x| ... x[0] ...)] *)
Lemma take1_agree f : agree shows_bytes (b_verifyp (b_take 1) (fun x => option_map f (bs_first x)))
  (verify (take 1) (fun x => match x with c :: _ => f c | [] => false end)).
Proof.
  intros i v H. pose proof (C46_parse_take 1 i v H) as K. unfold b_verifyp, verify.
  destruct (b_take 1 i) as [i1 x| | | |], (take 1 v) as [v1 y| | |] eqn:E; cbn in *; try contradiction; auto.
  destruct K as (L & D1 & HR). unfold take in E. destruct v as [|c v]; [discriminate|]. cbn in E. injection E as <- <-.
  unfold bs_first. rewrite HR. cbn. destruct (f c); cbn; auto.
Qed.
Lemma quoted_char_agree : agree shows_bytes b_quoted_char quoted_char.
Proof.
  apply C46_parse_alt; [eapply preceded_agree; [apply shows_still|apply tag_agree|]|]; apply take1_agree.
Qed.
Ltac sstill := first [apply same_still | apply shows_still].
Ltac step H := eapply C46_parse_seq; [sstill | apply H | let K := fresh "K" in intros ? ? ? K; cbv beta].
Lemma localpart_agree : agree shows_bytes b_localpart localpart.
Proof.
  apply C46_parse_alt.
  - apply (C46_parse_recognize _ _ (@same unit)).
    step tag_agree. eapply C46_parse_seq; [sstill|apply (many0_agree _ _ _ _ _ shows_still quoted_char_agree)|intros ? ? ? _].
    step tag_agree. apply ret_agree. reflexivity.
  - eapply C46_parse_recognize. eapply sep_complete_agree; [apply shows_still|apply tag_agree|apply C46_parse_is_a].
Qed.
Theorem C55_email : agree same b_email email_p.
Proof.
  step localpart_agree. eapply C46_parse_seq; [sstill| |].
  - apply C46_parse_opt, C46_parse_complete. eapply preceded_agree; [apply same_still|apply tag_agree|apply C55_hostname].
  - intros j x' y' K'. rewrite (promote_shows _ _ _ K). apply ret_agree. intros ?.
    unfold same. cbn. destruct x', y'; try contradiction; cbn in K'; [now rewrite K'|reflexivity].
Qed.
Lemma address_in_path_agree : agree same b_address_in_path address_in_path.
Proof.
  eapply preceded_agree; [apply same_still| |apply C55_email]. apply C46_parse_opt with (R := @same unit).
  eapply C46_parse_seq; [sstill| |].
  - eapply (C46_parse_separated_list _ _ _ _ shows_bytes (@same unit)); [apply same_still|apply tag_agree|].
    step tag_agree. step C55_hostname. apply ret_agree. reflexivity.
  - intros ? ? ? _. step tag_agree. apply ret_agree. reflexivity.
Qed.
Lemma maybe_bracketed_agree : agree same b_address_in_maybe_bracketed_path address_in_maybe_bracketed_path.
Proof.
  apply C46_parse_alt; [|apply address_in_path_agree].
  step tag_agree. step address_in_path_agree. step tag_agree. apply ret_agree. intros ?. exact K0.
Qed.
Lemma parameter_agree : agree same b_parameter parameter.
Proof.
  step C46_parse_one_of. step spaces_agree.
  eapply C46_parse_seq; [sstill|eapply C46_parse_recognize; apply label_agree|intros ? ? ? K1].
  eapply C46_parse_seq; [sstill|apply C46_parse_opt, C46_parse_complete; eapply preceded_agree; [apply shows_still|apply tag_agree|apply C46_parse_is_a]|].
  intros j x' y' K'. rewrite (promote_shows _ _ _ K1). unfold opt_promote. destruct x' as [x'|], y' as [y'|]; try contradiction.
  - rewrite (promote_shows _ _ _ K'). apply ret_agree. reflexivity.
  - apply ret_agree. reflexivity.
Qed.
Lemma same_list A (i : bslice) (a b : list A) : Forall2 (same i) a b -> a = b.
Proof. induction 1 as [|x y a b E _ IH]; [reflexivity|]. unfold same in E. now subst. Qed.
Theorem C55_parameters : agree same b_parse_parameters parse_parameters.
Proof.
  eapply C46_parse_map; [apply (many0_agree _ _ _ _ _ same_still parameter_agree)|].
  intros i x y H. apply same_list in H. subst. reflexivity.
Qed.
Lemma bare_agree verb c : agree same (b_bare_command verb c) (bare_command verb c).
Proof. step tag_no_case_agree. step spaces_agree. step tag_agree. apply ret_agree. reflexivity. Qed.
Lemma hello_agree verb mk : agree same (b_hello_command verb mk) (hello_command verb mk).
Proof.
  step spaces_agree. step tag_no_case_agree. step spaces_agree. step C55_hostname. step spaces_agree. step tag_agree.
  apply ret_agree. intros ?. unfold same in *. now subst.
Qed.
Lemma string_agree verb mk : agree same (b_string_command verb mk) (string_command verb mk).
Proof.
  step tag_no_case_agree. step C46_parse_one_of. step C46_parse_take_until. step tag_agree.
  rewrite (promote_shows _ _ _ K1). apply ret_agree. reflexivity.
Qed.
Lemma opt_string_agree verb mk : agree same (b_opt_string_command verb mk) (opt_string_command verb mk).
Proof.
  step tag_no_case_agree. eapply C46_parse_seq; [sstill|apply C46_parse_opt, C46_parse_one_of|intros ? ? ? _].
  step C46_parse_take_until. step tag_agree.
  rewrite (promote_shows _ _ _ K0). apply ret_agree. reflexivity.
Qed.
Lemma mail_from_agree : agree same b_mail_from mail_from.
Proof.
  apply C46_parse_alt.
  - eapply C46_parse_map; [apply tag_agree|]. reflexivity.
  - eapply C46_parse_map; [apply maybe_bracketed_agree|]. intros i x y H. unfold same in *. now subst.
Qed.
Theorem C55_command : agree same b_command command_p.
Proof.
  repeat first [apply C46_parse_alt | apply bare_agree | apply hello_agree | apply string_agree | apply opt_string_agree].
  - step tag_no_case_agree. step spaces_agree. step mail_from_agree. step C55_parameters. step spaces_agree. step tag_agree.
    apply ret_agree. intros ?. unfold same in *. now subst.
  - step tag_no_case_agree. step spaces_agree. step maybe_bracketed_agree. step C55_parameters. step spaces_agree. step tag_agree.
    apply ret_agree. intros ?. unfold same in *. now subst.
Qed.
Lemma reply_code_agree : agree same b_reply_code reply_code_p.
Proof.
  intros i v H. pose proof (utf8_agree _ (b_take 3) (take 3) u16_from_str (C46_parse_take 3) u16_utf8 i v H) as K.
  unfold b_reply_code, reply_code_p, b_pmapp, b_verify, verify.
  destruct (b_map_res _ _ i) as [i1 x| | | |], (map_res _ _ v) as [v1 y| | |]; cbn in *; try contradiction; auto.
  destruct K as (L & D1 & K). unfold same in K. subst. unfold reply_code_custom. destruct (y <? 1000)%N eqn:E; cbn; [|exact I].
  rewrite E. cbn. repeat split; auto; apply L.
Qed.
Theorem C55_reply : agree same b_reply reply_p.
Proof.
  step reply_code_agree. eapply C46_parse_seq; [sstill| |].
  - eapply (pmapp_agree _ _ _ _ shows_bytes (@same bool)); [apply C46_parse_alt; apply tag_agree|].
    intros j b w H. unfold b_is_last, bs_first. destruct (C46_accessors_exact b w H) as (_ & -> & _).
    unfold shows_bytes in H. rewrite H. eexists. split; [|unfold same; reflexivity]. destruct w as [|c [|d w]]; reflexivity.
  - intros ? ? ? K1. step C46_parse_take_until_and_consume. rewrite (promote_shows _ _ _ K0). apply ret_agree. intros ?.
    unfold same in *. now subst.
Qed.

(** ** The entry points *)
Lemma result_agree A (p : bparser A) (p' : parser A) i v : agree same p p' -> demote i = Some v ->
  b_nom_to_result (p i) = Some (nom_to_result (p' v)).
Proof.
  intros Hp H. specialize (Hp i v H). unfold b_nom_to_result, nom_to_result.
  destruct (p i) as [i1 x| | | |], (p' v) as [v1 y| | |]; cbn in Hp; try contradiction; auto.
  destruct Hp as (L & D1 & E). unfold same in E. subst. destruct (C46_accessors_exact i1 v1 D1) as (_ & -> & _). reflexivity.
Qed.
(** [Some] says that nothing panics: neither slicing, nor indexing, nor [promote],
    nor [into_utf8], nor [ReplyCode::custom]. *)
Theorem C55_command_parse : forall addr arg, b_command_parse addr arg = Some (command_parse arg).
Proof. intros addr arg. apply (result_agree _ _ command_p); [apply C55_command|apply C46_from_exact]. Qed.
Theorem C55_reply_parse : forall addr arg, b_reply_parse addr arg = Some (reply_parse arg).
Proof. intros addr arg. apply (result_agree _ _ reply_p); [apply C55_reply|apply C46_from_exact]. Qed.
Theorem C55_domain_parse : forall i v, demote i = Some v -> b_domain_parse i = Some (domain_parse v).
Proof. intros i v H. apply (result_agree _ _ hostname); [apply C55_hostname|exact H]. Qed.
Theorem C55_domain_parse_slice : forall addr b, b_domain_parse_slice addr b = Some (domain_parse b).
Proof. intros addr b. apply C55_domain_parse, C46_from_exact. Qed.
Theorem C55_email_parse : forall i v, demote i = Some v -> b_email_parse i = Some (email_parse v).
Proof. intros i v H. apply (result_agree _ _ email_p); [apply C55_email|exact H]. Qed.
Theorem C55_email_parse_slice : forall addr b, b_email_parse_slice addr b = Some (email_parse b).
Proof. intros addr b. apply C55_email_parse, C46_from_exact. Qed.

(** A slice in the middle of a buffer, a command, and bytes that are not UTF-8. *)
Example C55_inside : demote (BSlice 7 (s2b "<a@example.org>") 1 14) = Some (s2b "a@example.org")
  /\ b_email_parse (BSlice 7 (s2b "<a@example.org>") 1 14) = Some (POk (Email (s2b "a") (Some (Host (s2b "example.org"))))).
Proof. split; reflexivity. Qed.
Example C55_mail : b_command_parse 7 (s2b "MAIL FROM:<@x:""q""@[127.0.0.1]> SIZE=3" ++ CRLF)
  = Some (POk (Mail (Some (Email (s2b """q""") (Some (Addr4 (127, 0, 0, 1)%N)))) [(s2b "SIZE", Some (s2b "3"))])).
Proof. vm_compute. reflexivity. Qed.
Example C55_not_utf8 : b_domain_parse_slice 7 (s2b "[" ++ [195; 40]%N ++ s2b "]") = Some PParseError /\ utf8_ok [195; 40]%N = false.
Proof. split; reflexivity. Qed.
Print Assumptions C55_command_parse.
Print Assumptions C55_reply_parse.
Print Assumptions C55_domain_parse.
Print Assumptions C55_email_parse.
