(** C46: byte slices. *)
From Verif Require Import Bytes Nom ByteSlice SpecSlice.
Local Open Scope nat_scope.

Lemma demote_some b v : demote b = Some v ->
  sl_start b <= sl_end b <= length (sl_buf b) /\ v = sub (sl_buf b) (sl_start b) (sl_end b) /\ length v = sl_end b - sl_start b.
Proof.
  unfold demote, index. destruct (Nat.leb_spec (sl_start b) (sl_end b)); [|discriminate].
  destruct (Nat.leb_spec (sl_end b) (length (sl_buf b))); [|discriminate]. cbn. intros [= <-].
  split; [lia|]. split; [reflexivity|]. rewrite firstn_length, skipn_length. lia.
Qed.
Lemma demote_intro a buf i j : i <= j <= length buf -> demote (BSlice a buf i j) = Some (sub buf i j).
Proof.
  intros H. unfold demote, index. cbn.
  destruct (Nat.leb_spec i j); [|lia]. destruct (Nat.leb_spec j (length buf)); [|lia]. reflexivity.
Qed.
Lemma skipn_skipn {A} (v : list A) : forall i s, skipn i (skipn s v) = skipn (s + i) v.
Proof.
  induction v as [|x v IH]; intros i s; [now rewrite !skipn_nil|]. destruct s as [|s]; [reflexivity|]. cbn [skipn Nat.add]. apply IH.
Qed.
Lemma sub_sub v s e i j : s <= e <= length v -> i <= j <= e - s -> sub (sub v s e) i j = sub v (s + i) (s + j).
Proof.
  intros H1 H2. unfold sub. rewrite skipn_firstn_comm, skipn_skipn, firstn_firstn. f_equal. lia.
Qed.

(** A slice of everything. *)
Theorem C46_from_exact : forall addr b, demote (bs_from addr b) = Some b.
Proof.
  intros addr b. unfold bs_from. rewrite demote_intro by lia. unfold sub. cbn [skipn]. now rewrite Nat.sub_0_r, firstn_all.
Qed.
(** Slicing inside the slice. *)
Theorem C46_slice_exact : forall b v i j, demote b = Some v -> i <= j <= length v ->
  exists b', slice_range b i j = Some b' /\ demote b' = Some (sub v i j).
Proof.
  intros b v i j H Hij. destruct (demote_some _ _ H) as (H1 & -> & H2). unfold slice_range.
  destruct (Nat.leb_spec i j); [|lia]. destruct (Nat.leb_spec j (sl_end b)); [|lia]. cbn. eexists. split; [reflexivity|].
  rewrite demote_intro by lia. f_equal. symmetry. apply sub_sub; lia.
Qed.
Theorem C46_slice_to_from_full : forall b v i, demote b = Some v -> i <= length v ->
  (exists b', slice_to b i = Some b' /\ demote b' = Some (firstn i v))
  /\ (exists b', slice_from b i = Some b' /\ demote b' = Some (skipn i v))
  /\ demote (slice_full b) = Some v.
Proof.
  intros b v i H Hi. split; [|split; [|exact H]].
  - destruct (C46_slice_exact b v 0 i H) as (b' & E & D); [lia|]. exists b'. split; [exact E|]. rewrite D. unfold sub.
    now rewrite Nat.sub_0_r.
  - destruct (C46_slice_exact b v i (length v) H) as (b' & E & D); [lia|]. exists b'.
    destruct (demote_some _ _ H) as (_ & _ & El). unfold slice_from. rewrite <- El. split; [exact E|]. rewrite D. unfold sub.
    rewrite firstn_all2; [reflexivity|]. rewrite skipn_length. lia.
Qed.
(** Everything else looks at the bytes of the slice only. *)
Theorem C46_accessors_exact : forall b v, demote b = Some v ->
  promote b = Some v /\ bs_len b = length v /\ input_len b = length v /\ iter_elements b = Some v
  /\ iter_indices b = Some (combine (seq 0 (length v)) v)
  /\ (forall p, bs_position b p = Some (position p v))
  /\ (forall n, slice_index b n = if n <=? length v then Some n else None)
  /\ (forall eq t, bs_compare eq b t = Some (compare_with eq v t))
  /\ (forall t, find_substring b t = Some (find_sub t v)).
Proof.
  intros b v H. destruct (demote_some _ _ H) as (_ & _ & El).
  unfold promote, bs_len, input_len, iter_indices, bs_position, slice_index, bs_compare, find_substring, iter_elements, demote in *.
  rewrite H, <- El. repeat split; reflexivity.
Qed.
(** Equality is equality of place: it implies equal bytes, not conversely. *)
Theorem C46_equality : forall a b, (sl_addr a = sl_addr b -> sl_buf a = sl_buf b) -> bs_eq a b = true -> demote a = demote b.
Proof.
  intros a b Hb. unfold bs_eq. rewrite !andb_true_iff, !Nat.eqb_eq. intros [[E1 E2] E3]. unfold demote. now rewrite (Hb E3), E1, E2.
Qed.
Example C46_equality_not_bytes : exists a b v, demote a = Some v /\ demote b = Some v /\ bs_eq a b = false.
Proof. exists (BSlice 0 [1; 1]%N 0 1), (BSlice 0 [1; 1]%N 1 2), [1%N]. repeat split. Qed.

(** The check is the right one for a slice that begins its buffer only. *)
Theorem C46_check_at_start : forall b v i j, demote b = Some v -> sl_start b = 0 ->
  (slice_range b i j = None <-> ~ (i <= j <= length v)).
Proof.
  intros b v i j H E. destruct (demote_some _ _ H) as (H1 & _ & H2). unfold slice_range.
  destruct (Nat.leb_spec i j), (Nat.leb_spec j (sl_end b)); cbn; split; try discriminate; try reflexivity; try lia.
Qed.
(** Elsewhere it lets ranges through that go beyond the slice: the result shows
    bytes that are not in the slice, or panics when used. *)
Theorem C46_weak_check : forall b v i j, demote b = Some v -> i <= j -> length v < j <= sl_end b ->
  exists b', slice_range b i j = Some b'
    /\ (sl_start b + j <= length (sl_buf b) -> exists v', demote b' = Some v' /\ length v < i + length v'
        /\ v' = sub (sl_buf b) (sl_start b + i) (sl_start b + j))
    /\ (length (sl_buf b) < sl_start b + j -> demote b' = None).
Proof.
  intros b v i j H Hij Hj. destruct (demote_some _ _ H) as (H1 & _ & H2). unfold slice_range.
  destruct (Nat.leb_spec i j); [|lia]. destruct (Nat.leb_spec j (sl_end b)); [|lia]. cbn. eexists. split; [reflexivity|]. split.
  - intros K. rewrite demote_intro by lia. eexists. split; [reflexivity|]. split; [|reflexivity].
    unfold sub. rewrite firstn_length, skipn_length. lia.
  - intros K. unfold demote, index. cbn. destruct (Nat.leb_spec (sl_start b + j) (length (sl_buf b))); [lia|]. now rewrite andb_false_r.
Qed.
(** "hello": of its last three bytes [llo], [0..5] is accepted, and panics when
    used; of its bytes [ll], [0..3] gives [llo]. *)
Example C46_weak_check_example :
  (exists b', slice_range (BSlice 0 (s2b "hello") 2 5) 0 5 = Some b' /\ demote b' = None)
  /\ (exists b', slice_range (BSlice 0 (s2b "hello") 2 4) 0 3 = Some b' /\ demote b' = Some (s2b "llo")).
Proof. split; eexists; split; reflexivity. Qed.
Example C46_example : exists b', slice_range (BSlice 0 (s2b "hello") 1 5) 1 3 = Some b'
  /\ demote (BSlice 0 (s2b "hello") 1 5) = Some (s2b "ello") /\ demote b' = Some (s2b "ll").
Proof. eexists. repeat split. Qed.

(** ** Parsing a slice is parsing its bytes *)
Lemma later_refl i v : demote i = Some v -> later i i.
Proof. intros H. destruct (demote_some _ _ H) as (K & _ & _). repeat split; auto; lia. Qed.
Lemma later_trans a b c : later a b -> later b c -> later a c.
Proof. intros (A1 & A2 & A3 & A4) (B1 & B2 & B3 & B4). repeat split; try congruence; lia. Qed.
Lemma later_length i i' v v' : later i i' -> demote i = Some v -> demote i' = Some v' ->
  length v' <= length v /\ v' = skipn (length v - length v') v /\ sl_start i' - sl_start i = length v - length v'.
Proof.
  intros (A1 & A2 & A3 & A4) H H'. destruct (demote_some _ _ H) as (K1 & Ev & K2). destruct (demote_some _ _ H') as (K3 & Ev' & K4).
  rewrite K2, K4, A3 in *. split; [lia|]. split; [|lia].
  rewrite Ev', Ev, A2. unfold sub. rewrite skipn_firstn_comm, skipn_skipn. f_equal; [lia|]. f_equal. lia.
Qed.
Lemma split_agree m n i v : demote i = Some v -> m <= length v -> n <= length v ->
  exists r x, bsplit m n i = BDone r x /\ later i r /\ demote r = Some (skipn m v) /\ demote x = Some (firstn n v).
Proof.
  intros H Hm Hn. destruct (C46_slice_to_from_full i v m H Hm) as (_ & (r & E1 & D1) & _).
  destruct (C46_slice_to_from_full i v n H Hn) as ((x & E2 & D2) & _ & _).
  exists r, x. unfold bsplit. rewrite E1, E2. split; [reflexivity|]. split; [|auto].
  destruct (demote_some _ _ H) as (K & _ & El). unfold slice_from, slice_range in E1.
  destruct ((m <=? _) && _); [|discriminate]. injection E1 as <-. repeat split; cbn; lia.
Qed.
Lemma from_agree m i v : demote i = Some v -> m <= length v ->
  exists r, slice_from i m = Some r /\ later i r /\ demote r = Some (skipn m v).
Proof.
  intros H Hm. destruct (split_agree m m i v H Hm Hm) as (r & x & E & L & D & _). exists r. unfold bsplit in E.
  destruct (slice_from i m) as [r'|]; [|discriminate]. destruct (slice_to i m); [|discriminate]. injection E as -> _. auto.
Qed.

Lemma compare_length eq v t : compare_with eq v t = CmpOk -> length t <= length v.
Proof.
  revert v. induction t as [|b t IH]; intros v; [cbn; lia|]. destruct v as [|a v]; cbn; [discriminate|].
  destruct (eq a b); [|discriminate]. intros H. apply IH in H. lia.
Qed.
Theorem C46_parse_tag : forall eq t, agree shows_bytes (b_tag_with eq t) (tag_with eq t).
Proof.
  intros eq t i v H. unfold b_tag_with, tag_with. destruct (C46_accessors_exact i v H) as (_ & _ & _ & _ & _ & _ & _ & -> & _).
  destruct (compare_with eq v t) eqn:E; cbn; auto. apply compare_length in E.
  destruct (split_agree (length t) (length t) i v H E E) as (r & x & -> & L & D1 & D2). cbn. auto.
Qed.
Theorem C46_parse_one_of : forall set, agree same (b_one_of set) (one_of set).
Proof.
  intros set i v H. unfold b_one_of, one_of. destruct (C46_accessors_exact i v H) as (_ & _ & _ & -> & _).
  destruct v as [|c v]; cbn; auto. destruct (mem c set); cbn; auto.
  destruct (from_agree 1 i (c :: v) H) as (r & -> & L & D); [cbn; lia|]. cbn. repeat split; auto; apply L.
Qed.
Lemma span_position p v : match position (fun c => negb (p c)) v with
  | Some n => n < length v /\ span p v = (firstn n v, skipn n v)
  | None => span p v = (v, []) end.
Proof.
  induction v as [|c v IH]; cbn; [reflexivity|]. destruct (p c); cbn; [|split; [lia|reflexivity]].
  destruct (position _ v) as [n|]; cbn.
  - destruct IH as [? ->]. split; [lia|reflexivity].
  - now rewrite IH.
Qed.
Lemma all_agree i v : demote i = Some v -> exists r, slice_from i (input_len i) = Some r /\ later i r /\ demote r = Some [].
Proof.
  intros H. destruct (C46_accessors_exact i v H) as (_ & _ & -> & _).
  destruct (from_agree (length v) i v H) as (r & E & L & D); [lia|]. rewrite skipn_all in D. eauto.
Qed.
Theorem C46_parse_is_a : forall set, agree shows_bytes (b_is_a set) (is_a set).
Proof.
  intros set i v H. unfold b_is_a, is_a. destruct (C46_accessors_exact i v H) as (_ & _ & _ & _ & _ & -> & _).
  pose proof (span_position (fun c => mem c set) v) as S. destruct (position _ v) as [[|n]|].
  - destruct S as [Hl ->]. destruct v; [cbn in Hl; lia|]. exact I.
  - destruct S as [Hl ->]. destruct (split_agree (S n) (S n) i v H) as (r & x & -> & L & D1 & D2); [lia|lia|].
    destruct v as [|c v]; [cbn in Hl; lia|]. cbn [firstn] in *. cbn. auto.
  - rewrite S. destruct (all_agree i v H) as (r & -> & L & D). destruct v; cbn; auto.
Qed.
Theorem C46_parse_eat_separator : forall set, agree shows_bytes (b_eat_separator set) (eat_separator set).
Proof.
  intros set i v H. unfold b_eat_separator, eat_separator. destruct (C46_accessors_exact i v H) as (_ & _ & _ & _ & _ & -> & _).
  pose proof (span_position (fun c => mem c set) v) as S. destruct (position _ v) as [n|].
  - destruct S as [Hl ->]. destruct (split_agree n n i v H) as (r & x & -> & L & D1 & D2); [lia|lia|]. cbn. auto.
  - rewrite S. destruct (all_agree i v H) as (r & -> & L & D). cbn. auto.
Qed.
Theorem C46_parse_take : forall n, agree shows_bytes (b_take n) (take n).
Proof.
  intros n i v H. unfold b_take, take. destruct (C46_accessors_exact i v H) as (_ & _ & _ & _ & _ & _ & -> & _).
  destruct (Nat.leb_spec n (length v)); [|exact I].
  destruct (split_agree n n i v H) as (r & x & -> & L & D1 & D2); [lia|lia|]. cbn. auto.
Qed.
Lemma prefixb_length t v : prefixb t v = true -> length t <= length v.
Proof.
  revert v. induction t as [|a t IH]; intros v; [cbn; lia|]. destruct v as [|b v]; cbn; [discriminate|].
  rewrite andb_true_iff. intros [_ H]. apply IH in H. lia.
Qed.
Lemma find_sub_bound t v n : find_sub t v = Some n -> n + length t <= length v.
Proof.
  revert n. induction v as [|b v IH]; intros n; cbn [find_sub].
  - destruct (prefixb t []) eqn:E; [|discriminate]. intros [= <-]. apply prefixb_length in E. exact E.
  - destruct (prefixb t (b :: v)) eqn:E; [intros [= <-]; now apply prefixb_length in E|].
    destruct (find_sub t v) as [m|]; [|discriminate]. intros [= <-]. specialize (IH m eq_refl). cbn. lia.
Qed.
Lemma ltb_leb a b : (a <? b) = negb (b <=? a).
Proof. destruct (Nat.ltb_spec a b), (Nat.leb_spec b a); cbn; auto; lia. Qed.
Theorem C46_parse_take_until : forall t, agree shows_bytes (b_take_until t) (take_until t).
Proof.
  intros t i v H. unfold b_take_until, take_until.
  destruct (C46_accessors_exact i v H) as (_ & _ & -> & _ & _ & _ & _ & _ & ->). rewrite ltb_leb.
  destruct (length t <=? length v); cbn [negb]; [|exact I]. destruct (find_sub t v) as [n|] eqn:E; [|exact I].
  apply find_sub_bound in E. destruct (split_agree n n i v H) as (r & x & -> & L & D1 & D2); [lia|lia|]. cbn. auto.
Qed.
Theorem C46_parse_take_until_and_consume : forall t,
  agree shows_bytes (b_take_until_and_consume t) (take_until_and_consume t).
Proof.
  intros t i v H. unfold b_take_until_and_consume, take_until_and_consume.
  destruct (C46_accessors_exact i v H) as (_ & _ & -> & _ & _ & _ & _ & _ & ->). rewrite ltb_leb.
  destruct (length t <=? length v); cbn [negb]; [|exact I]. destruct (find_sub t v) as [n|] eqn:E; [|exact I].
  apply find_sub_bound in E. destruct (split_agree (n + length t) n i v H) as (r & x & -> & L & D1 & D2); [lia|lia|]. cbn. auto.
Qed.

Lemma same_still {A} : still (@same A).
Proof. intros i i' x y _ H. exact H. Qed.
Lemma shows_still : still shows_bytes.
Proof. intros i i' x y _ H. exact H. Qed.

Ltac agreed H i v Hi := let K := fresh in pose proof (H i v Hi) as K; unfold same_result in K.
Theorem C46_parse_seq : forall A B C D (R : bslice -> A -> C -> Prop) (Q : bslice -> B -> D -> Prop)
    (p : bparser A) (p' : parser C) (q : A -> bparser B) (q' : C -> parser D), still Q ->
  agree R p p' -> (forall i x y, R i x y -> agree Q (q x) (q' y)) ->
  agree Q (b_seq p q) (fun v => bind (p' v) (fun r y => q' y r)).
Proof.
  intros A B C D R Q p p' q q' HQ Hp Hq i v H. specialize (Hp i v H). unfold b_seq.
  destruct (p i) as [i1 x| | | |], (p' v) as [v1 y| | |]; cbn in *; try contradiction; auto.
  destruct Hp as (L & D1 & HR). specialize (Hq i x y HR i1 v1 D1).
  destruct (q x i1) as [i2 z| | | |], (q' y v1) as [v2 w| | |]; cbn in *; try contradiction; auto.
  destruct Hq as (L2 & D2 & HQ'). split; [eapply later_trans; eauto|]. split; [exact D2|]. eapply HQ; eauto.
Qed.
Theorem C46_parse_map_res : forall A B C D (R : bslice -> A -> C -> Prop) (Q : bslice -> B -> D -> Prop)
    (p : bparser A) (p' : parser C) f f', agree R p p' ->
  (forall i x y, R i x y -> match f x, f' y with Some a, Some b => Q i a b | None, None => True | _, _ => False end) ->
  agree Q (b_map_res p f) (map_res p' f').
Proof.
  intros A B C D R Q p p' f f' Hp Hf i v H. specialize (Hp i v H). unfold b_map_res, map_res.
  destruct (p i) as [i1 x| | | |], (p' v) as [v1 y| | |]; cbn in *; try contradiction; auto.
  destruct Hp as (L & D1 & HR). specialize (Hf i x y HR). destruct (f x), (f' y); try contradiction; cbn; auto.
Qed.
Theorem C46_parse_map : forall A B C D (R : bslice -> A -> C -> Prop) (Q : bslice -> B -> D -> Prop)
    (p : bparser A) (p' : parser C) f f', agree R p p' -> (forall i x y, R i x y -> Q i (f x) (f' y)) ->
  agree Q (b_pmap p f) (pmap p' f').
Proof.
  intros A B C D R Q p p' f f' Hp Hf i v H. specialize (Hp i v H). unfold b_pmap, pmap.
  destruct (p i) as [i1 x| | | |], (p' v) as [v1 y| | |]; cbn in *; try contradiction; auto.
  destruct Hp as (L & D1 & HR). auto.
Qed.
Theorem C46_parse_verify : forall A B (R : bslice -> A -> B -> Prop) (p : bparser A) (p' : parser B) f f', agree R p p' ->
  (forall i x y, R i x y -> f x = f' y) -> agree R (b_verify p f) (verify p' f').
Proof.
  intros A B R p p' f f' Hp Hf i v H. specialize (Hp i v H). unfold b_verify, verify.
  destruct (p i) as [i1 x| | | |], (p' v) as [v1 y| | |]; cbn in *; try contradiction; auto.
  destruct Hp as (L & D1 & HR). rewrite (Hf _ _ _ HR). destruct (f' y); cbn; auto.
Qed.
Theorem C46_parse_opt : forall A B (R : bslice -> A -> B -> Prop) (p : bparser A) (p' : parser B), agree R p p' ->
  agree (fun i x y => match x, y with Some a, Some b => R i a b | None, None => True | _, _ => False end) (b_opt p) (opt p').
Proof.
  intros A B R p p' Hp i v H. specialize (Hp i v H). unfold b_opt, opt.
  destruct (p i) as [i1 x| | | |], (p' v) as [v1 y| | |]; cbn in *; try contradiction; auto.
  split; [eapply later_refl; eauto|auto].
Qed.
Theorem C46_parse_complete : forall A B (R : bslice -> A -> B -> Prop) (p : bparser A) (p' : parser B), agree R p p' ->
  agree R (b_complete p) (complete p').
Proof.
  intros A B R p p' Hp i v H. specialize (Hp i v H). unfold b_complete, complete.
  destruct (p i) as [i1 x| | | |], (p' v) as [v1 y| | |]; cbn in *; try contradiction; auto.
Qed.
Theorem C46_parse_alt : forall A B (R : bslice -> A -> B -> Prop) (p q : bparser A) (p' q' : parser B),
  agree R p p' -> agree R q q' -> agree R (b_alt p q) (alt p' q').
Proof.
  intros A B R p q p' q' Hp Hq i v H. specialize (Hp i v H). unfold b_alt, alt.
  destruct (p i) as [i1 x| | | |], (p' v) as [v1 y| | |]; cbn in *; try contradiction; auto.
Qed.
Theorem C46_parse_recognize : forall A B (R : bslice -> A -> B -> Prop) (p : bparser A) (p' : parser B), agree R p p' ->
  agree shows_bytes (b_recognize p) (recognize p').
Proof.
  intros A B R p p' Hp i v H. specialize (Hp i v H). unfold b_recognize, recognize.
  destruct (p i) as [i1 x| | | |], (p' v) as [v1 y| | |]; cbn in *; try contradiction; auto.
  destruct Hp as (L & D1 & _). destruct (later_length _ _ _ _ L H D1) as (K1 & _ & K3). unfold bs_offset. rewrite K3.
  destruct (C46_slice_to_from_full i v (length v - length v1) H) as ((b & -> & D2) & _); [lia|]. cbn. auto.
Qed.
Lemma Forall2_impl {A B} (P Q : A -> B -> Prop) a b : (forall x y, P x y -> Q x y) -> Forall2 P a b -> Forall2 Q a b.
Proof. intros H F. induction F; constructor; auto. Qed.
Lemma later_eq i i' v v' : later i i' -> demote i = Some v -> demote i' = Some v' -> bs_eq i' i = (length v' =? length v).
Proof.
  intros L H H'. destruct (later_length _ _ _ _ L H H') as (K1 & _ & K3). destruct L as (A1 & A2 & A3 & A4).
  unfold bs_eq. rewrite A1, A3, !Nat.eqb_refl, !andb_true_r.
  destruct (Nat.eqb_spec (sl_start i') (sl_start i)), (Nat.eqb_spec (length v') (length v)); auto; lia.
Qed.
Lemma sep_loop_agree A B C D (R : bslice -> A -> C -> Prop) (Q : bslice -> B -> D -> Prop)
    (s : bparser A) (s' : parser C) (p : bparser B) (p' : parser D) : still Q -> agree R s s' -> agree Q p p' ->
  forall fuel, agree (fun i => Forall2 (Q i)) (b_sep_loop fuel s p) (sep_loop fuel s' p').
Proof.
  intros HQ Hs Hp. assert (HF : still (fun i => Forall2 (Q i))).
  { intros i i' x y L F. eapply Forall2_impl; [|exact F]. intros. eapply HQ; eauto. }
  induction fuel as [|fuel IH]; intros i v H; cbn; [exact I|].
  pose proof (Hs i v H) as K. destruct (s i) as [i1 x| | | |], (s' v) as [v1 y| | |]; cbn in *; try contradiction; auto.
  2: { split; [eapply later_refl; eauto|auto]. }
  destruct K as (L & D1 & _). rewrite (later_eq _ _ _ _ L H D1). destruct (length v1 =? length v); [split; [eapply later_refl; eauto|auto]|].
  pose proof (Hp i1 v1 D1) as K. destruct (p i1) as [i2 z| | | |], (p' v1) as [v2 w| | |]; cbn in *; try contradiction; auto.
  2: { split; [eapply later_refl; eauto|auto]. }
  destruct K as (L2 & D2 & HQ2). rewrite (later_eq _ _ _ _ L2 D1 D2). destruct (length v2 =? length v1); [split; [eapply later_refl; eauto|auto]|].
  specialize (IH i2 v2 D2). destruct (b_sep_loop fuel s p i2) as [i3 zs| | | |], (sep_loop fuel s' p' v2) as [v3 ws| | |]; cbn in *; try contradiction; auto.
  destruct IH as (L3 & D3 & HQ3). assert (L4 : later i i2) by (eapply later_trans; eauto).
  split; [eapply later_trans; eauto|]. split; [exact D3|]. constructor; [exact (HQ _ _ _ _ L HQ2)|].
  eapply HF; eauto.
Qed.
Theorem C46_parse_separated_nonempty_list : forall A B C D (R : bslice -> A -> C -> Prop) (Q : bslice -> B -> D -> Prop)
    (s : bparser A) (s' : parser C) (p : bparser B) (p' : parser D), still Q -> agree R s s' -> agree Q p p' ->
  agree (fun i => Forall2 (Q i)) (b_separated_nonempty_list s p) (separated_nonempty_list s' p').
Proof.
  intros A B C D R Q s s' p p' HQ Hs Hp i v H. unfold b_separated_nonempty_list, separated_nonempty_list.
  pose proof (Hp i v H) as K. destruct (p i) as [i1 x| | | |], (p' v) as [v1 y| | |]; cbn [same_result bbind bind] in *; try contradiction; auto.
  destruct K as (L & D1 & HQ1).
  destruct (C46_accessors_exact i v H) as (_ & _ & -> & _). destruct (C46_accessors_exact i1 v1 D1) as (_ & _ & -> & _).
  destruct (length v1 =? length v); [exact I|].
  pose proof (sep_loop_agree _ _ _ _ R Q s s' p p' HQ Hs Hp (S (length v1)) i1 v1 D1) as K.
  destruct (b_sep_loop (S (length v1)) s p i1) as [i3 zs| | | |], (sep_loop (S (length v1)) s' p' v1) as [v3 ws| | |]; cbn [same_result bbind bind] in *; try contradiction; auto.
  destruct K as (L3 & D3 & HQ3). split; [eapply later_trans; eauto|]. split; [exact D3|]. constructor; [exact HQ1|].
  eapply Forall2_impl; [|exact HQ3]. intros. eapply HQ; eauto.
Qed.
Theorem C46_parse_separated_list : forall A B C D (R : bslice -> A -> C -> Prop) (Q : bslice -> B -> D -> Prop)
    (s : bparser A) (s' : parser C) (p : bparser B) (p' : parser D), still Q -> agree R s s' -> agree Q p p' ->
  agree (fun i => Forall2 (Q i)) (b_separated_list s p) (separated_list s' p').
Proof.
  intros A B C D R Q s s' p p' HQ Hs Hp i v H. unfold b_separated_list, separated_list.
  pose proof (Hp i v H) as K. destruct (p i) as [i1 x| | | |], (p' v) as [v1 y| | |]; cbn [same_result bbind bind] in *; try contradiction; auto.
  2: { split; [eapply later_refl; eauto|auto]. }
  destruct K as (L & D1 & HQ1).
  destruct (C46_accessors_exact i v H) as (_ & _ & -> & _). destruct (C46_accessors_exact i1 v1 D1) as (_ & _ & -> & _).
  destruct (length v1 =? length v); [exact I|].
  pose proof (sep_loop_agree _ _ _ _ R Q s s' p p' HQ Hs Hp (S (length v1)) i1 v1 D1) as K.
  destruct (b_sep_loop (S (length v1)) s p i1) as [i3 zs| | | |], (sep_loop (S (length v1)) s' p' v1) as [v3 ws| | |]; cbn [same_result bbind bind] in *; try contradiction; auto.
  destruct K as (L3 & D3 & HQ3). split; [eapply later_trans; eauto|]. split; [exact D3|]. constructor; [exact HQ1|].
  eapply Forall2_impl; [|exact HQ3]. intros. eapply HQ; eauto.
Qed.
Print Assumptions C46_slice_exact.
Print Assumptions C46_weak_check.
Print Assumptions C46_parse_separated_list.
Print Assumptions C46_parse_recognize.
