From Verif Require Import Bytes Nom SmtpString Reply Stream SpecData DataLines StreamProofs NomLemmas SpecReply.
Local Open Scope N_scope.

Lemma reply_byte_ok_spec x : reply_byte_ok x = true <-> printable x.
Proof.
  unfold reply_byte_ok, printable. rewrite orb_true_iff, andb_true_iff, N.eqb_eq, !N.leb_le. reflexivity.
Qed.
Lemma position_none p s : position p s = None <-> Forall (fun c => p c = false) s.
Proof.
  induction s as [|c s IH]; cbn; [split; auto|]. destruct (p c) eqn:E.
  - split; [discriminate|]. intros H. inversion H. congruence.
  - destruct (position p s) as [k|]; cbn.
    + split; [discriminate|]. intros H. inversion H; subst. destruct IH as [_ IH]. now apply IH in H3.
    + split; [|auto]. intros _. constructor; [exact E|]. now apply IH.
Qed.
Lemma position_some p s k : position p s = Some k <->
  exists a c b, s = a ++ c :: b /\ length a = k /\ p c = true /\ Forall (fun c => p c = false) a.
Proof.
  revert k. induction s as [|c s IH]; intros k; cbn.
  - split; [discriminate|]. intros (a & c & b & E & _). now destruct a.
  - destruct (p c) eqn:E.
    + split.
      * intros H. injection H as <-. exists [], c, s. auto.
      * intros (a & c' & b & E' & L & Hc & Ha). destruct a as [|a0 a]; cbn in *; [subst; reflexivity|].
        injection E' as -> ->. inversion Ha. congruence.
    + destruct (position p s) as [j|]; cbn.
      * split.
        -- intros H. injection H as <-. destruct (proj1 (IH j) eq_refl) as (a & c' & b & -> & L & Hc & Ha).
           exists (c :: a), c', b. cbn. repeat split; auto.
        -- intros (a & c' & b & E' & L & Hc & Ha). destruct a as [|a0 a]; cbn in *.
           ++ injection E' as -> ->. congruence.
           ++ injection E' as -> ->. inversion Ha; subst. f_equal.
              enough (Some j = Some (length a)) by congruence. apply IH. eauto 10.
      * split; [discriminate|]. intros (a & c' & b & E' & L & Hc & Ha). destruct a as [|a0 a]; cbn in *.
        -- injection E' as -> ->. congruence.
        -- injection E' as -> ->. inversion Ha; subst.
           assert (None = Some (length a)) by (apply IH; eauto 10). discriminate.
Qed.
Lemma not_printable x : negb (reply_byte_ok x) = true <-> ~ printable x.
Proof. rewrite negb_true_iff, <- reply_byte_ok_spec. now destruct (reply_byte_ok x). Qed.
Lemma printable_forall s : Forall (fun c => negb (reply_byte_ok c) = false) s <-> Forall printable s.
Proof.
  split; intros H; (eapply Forall_impl; [|exact H]); intros c Hc; cbn in *.
  - apply negb_false_iff in Hc. now apply reply_byte_ok_spec.
  - apply negb_false_iff. now apply reply_byte_ok_spec.
Qed.
Lemma printable_dec c : printable c \/ ~ printable c.
Proof. destruct (reply_byte_ok c) eqn:E; [left; now apply reply_byte_ok_spec|right]. rewrite <- reply_byte_ok_spec. congruence. Qed.

Lemma build_ok code last text :
  (length text <= 506)%nat -> Forall printable text ->
  reply_build code last text = inl (ReplyLine code last text).
Proof.
  intros Hl Ht. unfold reply_build. replace (Nat.ltb MAX_LEN (length text)) with false
    by (symmetry; apply Nat.ltb_ge; exact Hl).
  apply printable_forall, position_none in Ht. now rewrite Ht.
Qed.
Lemma build_inl code last text r : reply_build code last text = inl r ->
  (length text <= 506)%nat /\ Forall printable text /\ r = ReplyLine code last text.
Proof.
  unfold reply_build. destruct (Nat.ltb MAX_LEN (length text)) eqn:E; [discriminate|].
  apply Nat.ltb_ge in E. unfold MAX_LEN in E.
  destruct (position _ text) eqn:P; [discriminate|]. apply position_none, printable_forall in P.
  intros H. injection H as <-. auto.
Qed.

Lemma digits_of code : code < 1000 ->
  three_digits code [code mod 1000 / 100 + 48; code mod 100 / 10 + 48; code mod 10 + 48].
Proof.
  intros H.
  assert (Hd : forall a b, b <> 0 -> a = b * (a / b) + a mod b /\ a mod b < b)
    by (intros a b Hb; split; [now apply N.div_mod|now apply N.mod_lt]).
  rewrite (N.mod_small code 1000) by exact H.
  destruct (Hd code 100 ltac:(discriminate)) as [H1 H2].
  destruct (Hd code 10 ltac:(discriminate)) as [H3 H4].
  destruct (Hd (code mod 100) 10 ltac:(discriminate)) as [H5 H6].
  clear Hd. unfold three_digits.
  generalize dependent (code mod 100 / 10). generalize dependent ((code mod 100) mod 10).
  generalize dependent (code mod 100). generalize dependent (code / 100).
  generalize dependent (code / 10). generalize dependent (code mod 10).
  intros r3 H4 q3 H3 q1 m H1 H2 r H6 q H5. exists q1, q, r3.
  repeat split; [lia..|]. do 2 (f_equal; [lia|]). f_equal. lia.
Qed.
Lemma three_digits_unique code d1 d2 : three_digits code d1 -> three_digits code d2 -> d1 = d2.
Proof.
  intros (a & b & c & Ha & Hb & Hc & E & ->) (a' & b' & c' & Ha' & Hb' & Hc' & E' & ->).
  assert (a = a' /\ b = b' /\ c = c') as (-> & -> & ->) by lia. reflexivity.
Qed.
Lemma reply_send_wire code last text : code < 1000 ->
  reply_on_wire code last text (reply_send (ReplyLine code last text)).
Proof.
  intros H. eexists. split; [exact (digits_of code H)|].
  unfold reply_send. cbn [rl_code rl_last rl_line]. now destruct last.
Qed.
Lemma reply_send_len r : length (reply_send r) = reply_byte_len r.
Proof.
  unfold reply_send, reply_byte_len. destruct r as [code [|] text]; cbn; rewrite app_length; cbn; lia.
Qed.
Lemma reply_on_wire_unique code last text w1 w2 :
  reply_on_wire code last text w1 -> reply_on_wire code last text w2 -> w1 = w2.
Proof. intros (d1 & H1 & ->) (d2 & H2 & ->). now rewrite (three_digits_unique _ _ _ H1 H2). Qed.
Lemma printable_is_line text : Forall printable text -> is_line text.
Proof.
  intros H (u & v & ->). apply Forall_app in H. destruct H as [_ H]. inversion H as [|? ? Hc _]; subst.
  unfold printable, CR in Hc. lia.
Qed.

(** Reading the code. *)
Definition reads_as (num : bytes) (code : N) : Prop :=
  three_digits code num
  \/ exists b c, b < 10 /\ c < 10 /\ code = 10 * b + c /\ num = [43; 48 + b; 48 + c].

Lemma u16_digits_spec : forall ds acc v, u16_digits ds acc = Some v ->
  Forall (fun c => 48 <= c /\ c <= 57) ds.
Proof.
  induction ds as [|c ds IH]; intros acc v H; cbn in H; [constructor|].
  destruct ((48 <=? c) && (c <=? 57)) eqn:E; [|discriminate].
  apply andb_true_iff in E. rewrite !N.leb_le in E.
  destruct (_ <? _); [discriminate|]. constructor; eauto.
Qed.
Lemma u16_digit_step d ds acc : d < 10 -> acc * 10 + d < 1000 ->
  u16_digits (48 + d :: ds) acc = u16_digits ds (acc * 10 + d).
Proof.
  intros Hd Hb. cbn [u16_digits].
  replace (48 <=? 48 + d) with true by (symmetry; apply N.leb_le; lia).
  replace (48 + d <=? 57) with true by (symmetry; apply N.leb_le; lia). cbn [andb].
  replace (48 + d - 48) with d by lia.
  replace (65535 <? acc * 10 + d) with false by (symmetry; apply N.ltb_ge; lia). reflexivity.
Qed.
Lemma plus_strip x (s : bytes) :
  (match x :: s with 43 :: s' => s' | _ => x :: s end) = if x =? 43 then s else x :: s.
Proof.
  destruct x as [|p]; [reflexivity|].
  do 6 (destruct p as [p|p|]; try reflexivity).
Qed.
Lemma u16_three x y z v : u16_from_str [x; y; z] = Some v <-> reads_as [x; y; z] v.
Proof.
  unfold u16_from_str. rewrite plus_strip. destruct (N.eqb_spec x 43) as [->|Hx]; split.
  - intros H. pose proof (u16_digits_spec _ _ _ H) as Hd. inversion Hd as [|? ? Hy Hd']; subst.
    inversion Hd' as [|? ? Hz _]; subst. right. exists (y - 48), (z - 48).
    assert (Ey : y = 48 + (y - 48)) by lia. assert (Ez : z = 48 + (z - 48)) by lia.
    rewrite Ey, Ez in H. rewrite !u16_digit_step in H by lia. injection H as <-.
    repeat split; try lia. now rewrite <- Ey, <- Ez.
  - intros [(a & b & c & Ha & _ & _ & _ & E)|(b & c & Hb & Hc & -> & E)].
    + assert (43 = 48 + a) by congruence. lia.
    + assert (y = 48 + b /\ z = 48 + c) as (-> & ->) by (split; congruence). rewrite !u16_digit_step by lia. cbn [u16_digits]. f_equal. lia.
  - intros H. pose proof (u16_digits_spec _ _ _ H) as Hd. inversion Hd as [|? ? Hx' Hd']; subst.
    inversion Hd' as [|? ? Hy Hd'']; subst. inversion Hd'' as [|? ? Hz _]; subst.
    left. exists (x - 48), (y - 48), (z - 48).
    assert (Ex : x = 48 + (x - 48)) by lia.
    assert (Ey : y = 48 + (y - 48)) by lia. assert (Ez : z = 48 + (z - 48)) by lia.
    rewrite Ex, Ey, Ez in H. rewrite !u16_digit_step in H by lia. injection H as <-.
    repeat split; try lia. now rewrite <- Ex, <- Ey, <- Ez.
  - intros [(a & b & c & Ha & Hb & Hc & -> & E)|(b & c & Hb & Hc & -> & E)].
    + assert (x = 48 + a /\ y = 48 + b /\ z = 48 + c) as (-> & -> & ->) by (repeat split; congruence). rewrite !u16_digit_step by lia. cbn [u16_digits]. f_equal. lia.
    + congruence.
Qed.
Lemma reads_as_small num v : reads_as num v -> v < 1000 /\ length num = 3%nat.
Proof.
  intros [(a & b & c & Ha & Hb & Hc & -> & ->)|(b & c & Hb & Hc & -> & ->)]; split; (lia || reflexivity).
Qed.
Lemma reply_code_Done i r v : reply_code_p i = Done r v <-> exists num, reads_as num v /\ i = num ++ r.
Proof.
  unfold reply_code_p, verify, map_res, take. split.
  - destruct (Nat.leb 3 (length i)) eqn:E; [|discriminate]. cbn [bind].
    apply Nat.leb_le in E. destruct i as [|x [|y [|z i]]]; cbn [length] in E; try lia. cbn [firstn skipn].
    destruct (u16_from_str [x; y; z]) as [v'|] eqn:Ev; [|discriminate]. cbn [bind].
    destruct (v' <? 1000); [|discriminate]. intros H. injection H as <- <-.
    exists [x; y; z]. split; [now apply u16_three|reflexivity].
  - intros (num & Hn & ->). destruct (reads_as_small _ _ Hn) as [Hv Hl].
    destruct num as [|x [|y [|z [|? ?]]]]; try discriminate. cbn [app length firstn skipn Nat.leb bind].
    apply u16_three in Hn. rewrite Hn. cbn [bind]. apply N.ltb_lt in Hv. now rewrite Hv.
Qed.
Lemma reply_last_Done i r l : reply_last_p i = Done r l <-> i = (if l then SP else 45) :: r.
Proof.
  unfold reply_last_p, pmap. split.
  - destruct (alt (tag (s2b "-")) (tag (s2b " ")) i) as [r' x| | |] eqn:E; try discriminate. cbn [bind].
    intros H. injection H as <- <-. apply alt_Done in E. destruct E as [E|[_ E]]; apply tag_Done in E;
      destruct E as [-> ->]; reflexivity.
  - intros ->. destruct l.
    + rewrite alt_second by (apply tag_Err; reflexivity).
      change (SP :: r) with (s2b " " ++ r). rewrite tag_app. reflexivity.
    + erewrite alt_first; [|change (45 :: r) with (s2b "-" ++ r); apply tag_app]. reflexivity.
Qed.
Lemma take_crlf_Done i r x : take_until_and_consume CRLF i = Done r x <-> is_line x /\ i = x ++ CRLF ++ r.
Proof.
  unfold take_until_and_consume. split.
  - destruct (Nat.ltb _ _); [discriminate|]. pose proof (find_sub_spec i) as P.
    destruct (find_sub CRLF i) as [n|]; [|discriminate]. destruct P as (a & b & -> & L & Ha).
    intros H. injection H as <- <-. subst n. rewrite firstn_app, Nat.sub_diag, firstn_all. cbn [firstn].
    rewrite app_nil_r. rewrite skipn_app, skipn_all2 by lia.
    change (length CRLF) with 2%nat. replace (length a + 2 - length a)%nat with 2%nat by lia. split; [exact Ha|reflexivity].
  - intros [Hx ->]. rewrite !app_length. cbn [length CRLF].
    replace (Nat.ltb _ _) with false by (symmetry; apply Nat.ltb_ge; lia).
    pose proof (find_sub_spec (x ++ CRLF ++ r)) as P.
    destruct (find_sub CRLF (x ++ CRLF ++ r)) as [n|].
    + destruct P as (a & b & E & L & Ha). destruct (first_crlf_unique _ _ _ _ Hx Ha E) as [<- <-].
      subst n. f_equal.
      * rewrite skipn_app, skipn_all2 by lia.
        replace (length x + 2 - length x)%nat with 2%nat by lia. reflexivity.
      * rewrite firstn_app, Nat.sub_diag, firstn_all. apply app_nil_r.
    + exfalso. apply P. now exists x, r.
Qed.
Lemma reply_parse_ok b code last text : reply_parse b = POk (ReplyLine code last text) <->
  exists num, reads_as num code /\ is_line text /\ b = num ++ [if last then SP else 45] ++ text ++ CRLF.
Proof.
  unfold reply_parse. rewrite nom_to_result_Ok. unfold reply_p. split.
  - destruct (reply_code_p b) as [i v| | |] eqn:E1; try discriminate. cbn [bind].
    destruct (reply_last_p i) as [i2 l| | |] eqn:E2; try discriminate. cbn [bind].
    destruct (take_until_and_consume CRLF i2) as [i3 x| | |] eqn:E3; try discriminate. cbn [bind].
    intros H. injection H as -> -> -> ->.
    apply reply_code_Done in E1. apply reply_last_Done in E2. apply take_crlf_Done in E3.
    destruct E1 as (num & Hn & ->), E3 as [Hx ->]. subst i. exists num. rewrite app_nil_r. auto.
  - intros (num & Hn & Hx & ->).
    rewrite (proj2 (reply_code_Done _ ([if last then SP else 45] ++ text ++ CRLF) code)); [|eauto]. cbn [bind].
    rewrite (proj2 (reply_last_Done _ (text ++ CRLF) last)) by reflexivity. cbn [bind].
    rewrite (proj2 (take_crlf_Done _ [] text)); [reflexivity|]. rewrite app_nil_r. auto.
Qed.

(** ** byte_chunks *)
Lemma chunked_concat n s ps : chunked n s ps -> concat ps = s.
Proof. induction 1; cbn; [reflexivity|apply app_nil_r|now rewrite IHchunked]. Qed.
Lemma chunked_sizes n s ps : (0 < n)%nat -> chunked n s ps -> Forall (fun p => 1 <= length p <= n)%nat ps.
Proof. intros Hn. induction 1; constructor; auto. lia. Qed.
Lemma chunked_nil_inv n s : chunked n s [] -> s = [].
Proof. inversion 1; reflexivity. Qed.
Lemma chunked_nonnil n s ps : chunked n s ps -> s <> [] -> ps <> [].
Proof. inversion 1; subst; congruence. Qed.
Lemma chunked_unique n s p1 p2 : (0 < n)%nat -> chunked n s p1 -> chunked n s p2 -> p1 = p2.
Proof.
  intros Hn H. revert p2. induction H as [|p Hp|p s ps Hp Hs H IH]; intros p2 H2.
  - inversion H2 as [E|q Hq E|q s2 qs Hq Hs2 H3 E]; subst; auto; [cbn in Hq; lia|].
    destruct q; [cbn in Hn; lia|discriminate].
  - inversion H2 as [E|q Hq E|q s2 qs Hq Hs2 H3 E]; subst; auto; [cbn in Hp; lia|].
    rewrite app_length in Hp. destruct s2; [congruence|cbn in Hp; lia].
  - inversion H2 as [E|q Hq E|q s2 qs Hq Hs2 H3 E].
    + destruct p; [cbn in Hp; lia|discriminate].
    + subst q. rewrite app_length in Hq. destruct s; [congruence|cbn in Hq; lia].
    + apply app_eq_app in E. destruct E as (l & [[E1 E2]|[E1 E2]]).
      * subst q. rewrite app_length in Hq. destruct l; [|cbn in Hq; lia].
        rewrite app_nil_r. cbn in E2. subst. f_equal. auto.
      * subst p. rewrite app_length in Hp. destruct l; [|cbn in Hp; lia].
        rewrite app_nil_r. cbn in E2. subst. f_equal. auto.
Qed.

Lemma skipn_skipn {A} : forall (y x : nat) (l : list A), skipn x (skipn y l) = skipn (x + y) l.
Proof.
  induction y as [|y IH]; intros x l; [now rewrite Nat.add_0_r|].
  rewrite Nat.add_succ_r. destruct l as [|a l]; [now rewrite !skipn_nil|]. cbn [skipn]. apply IH.
Qed.
Lemma usize_small x : x < usize_max_plus_1 -> usize x = x.
Proof. apply N.mod_small. Qed.
Definition nth_chunk (s : bytes) (n : N) (k : nat) : option bytes :=
  bytes_slice s (usize (N.of_nat k * n)) (N.min (N.of_nat (length s)) (usize ((N.of_nat k + 1) * n))).
(** The loop of slices, from the [k]th on. *)
Lemma chunks_from (s : bytes) (n : N) : 0 < n -> N.of_nat (length s) + n <= usize_max_plus_1 ->
  forall m k, N.of_nat (length s) <= N.of_nat (k + m) * n ->
  (m = 0%nat \/ N.of_nat (k + m - 1) * n < N.of_nat (length s)) ->
  exists ps, sequence (map (nth_chunk s n) (seq k m)) = Some ps
  /\ chunked (N.to_nat n) (skipn (N.to_nat (N.of_nat k * n)) s) ps.
Proof.
  intros Hn Hov m. induction m as [|m IH]; intros k Hk Hlast.
  - exists []. split; [reflexivity|]. rewrite skipn_all2 by lia. constructor.
  - destruct Hlast as [C|Hlast]; [discriminate|]. cbn [seq map sequence]. unfold nth_chunk at 1.
    assert (Hkn : N.of_nat k * n < N.of_nat (length s)) by nia.
    rewrite (usize_small (N.of_nat k * n)) by lia.
    rewrite (usize_small ((N.of_nat k + 1) * n)) by lia.
    unfold bytes_slice.
    replace (N.of_nat k * n <=? N.min (N.of_nat (length s)) ((N.of_nat k + 1) * n)) with true
      by (symmetry; apply N.leb_le; lia).
    replace (N.min (N.of_nat (length s)) ((N.of_nat k + 1) * n) <=? N.of_nat (length s)) with true
      by (symmetry; apply N.leb_le; lia). cbn [andb].
    destruct (IH (S k)) as (ps & Hps & Hch); [nia|destruct m; [left; reflexivity|right; nia]|].
    rewrite Hps. cbn [option_map]. eexists. split; [reflexivity|].
    set (tl := skipn (N.to_nat (N.of_nat k * n)) s) in *.
    assert (Lt : length tl = (length s - N.to_nat (N.of_nat k * n))%nat) by apply skipn_length.
    assert (Esk : skipn (N.to_nat (N.of_nat (S k) * n)) s = skipn (N.to_nat n) tl).
    { unfold tl. rewrite skipn_skipn, Nat2N.inj_succ, N.mul_succ_l. f_equal. lia. }
    rewrite Esk in Hch.
    destruct (N.leb_spec (N.of_nat (length s)) ((N.of_nat k + 1) * n)) as [Hl|Hl].
    + rewrite N.min_l by lia. rewrite firstn_all2 by lia.
      rewrite skipn_all2 in Hch by lia. inversion Hch as [E|p Hp E|p s' qs Hp Hs H E].
      * apply chunked_last. lia.
      * subst. cbn in Hp. lia.
      * destruct p; [cbn in Hp; lia|discriminate].
    + rewrite N.min_r by lia. replace ((N.of_nat k + 1) * n - N.of_nat k * n) with n by lia.
      rewrite <- (firstn_skipn (N.to_nat n) tl) at 1. apply chunked_more; auto.
      * rewrite firstn_length. lia.
      * intros C. apply (f_equal (@length N)) in C. rewrite skipn_length in C. cbn in C. lia.
Qed.
Lemma byte_chunks_ok s n : 0 < n -> N.of_nat (length s) + n <= usize_max_plus_1 ->
  exists ps, byte_chunks s n = Some ps /\ chunked (N.to_nat n) s ps.
Proof.
  intros Hn Hov. unfold byte_chunks. replace (n =? 0) with false by (symmetry; apply N.eqb_neq; lia).
  cbv zeta. unfold byte_chunks_count.
  set (len := N.of_nat (length s)) in *.
  assert (E : usize (usize (len + n) + usize_max_plus_1 - 1) = len + n - 1).
  { destruct (N.eq_dec (len + n) usize_max_plus_1) as [->|Hne].
    - reflexivity.
    - rewrite (usize_small (len + n)) by lia. unfold usize.
      replace (len + n + usize_max_plus_1 - 1) with (len + n - 1 + 1 * usize_max_plus_1)
        by (unfold usize_max_plus_1 in *; lia).
      rewrite N.mod_add by discriminate. apply N.mod_small. lia. }
  rewrite E. set (q := (len + n - 1) / n).
  assert (Hq : len + n - 1 = n * q + (len + n - 1) mod n) by (apply N.div_mod; lia).
  assert (Hr : (len + n - 1) mod n < n) by (apply N.mod_lt; lia).
  generalize dependent ((len + n - 1) mod n). intros rm Hq Hr. clearbody q.
  destruct (chunks_from s n Hn Hov (N.to_nat q) 0) as (ps & Hps & Hch).
  - cbn [Nat.add]. rewrite N2Nat.id. fold len. nia.
  - destruct (N.eq_dec q 0) as [->|Hq0]; [left; reflexivity|right].
    replace (0 + N.to_nat q - 1)%nat with (N.to_nat (q - 1)) by lia. rewrite N2Nat.id. fold len. nia.
  - exists ps. split; [exact Hps|exact Hch].
Qed.
Lemma byte_chunks_overflow s n : n < usize_max_plus_1 -> N.of_nat (length s) < usize_max_plus_1 ->
  usize_max_plus_1 < N.of_nat (length s) + n -> byte_chunks s n = Some [].
Proof.
  intros Hn Hl Hov. unfold byte_chunks. replace (n =? 0) with false by (symmetry; apply N.eqb_neq; lia).
  cbv zeta. unfold byte_chunks_count. set (len := N.of_nat (length s)) in *.
  assert (E : usize (usize (len + n) + usize_max_plus_1 - 1) = len + n - 1 - usize_max_plus_1).
  { unfold usize at 2. replace (len + n) with (len + n - usize_max_plus_1 + 1 * usize_max_plus_1) at 1 by lia.
    rewrite N.mod_add by discriminate. rewrite N.mod_small by lia. unfold usize.
    replace (len + n - usize_max_plus_1 + usize_max_plus_1 - 1)
      with (len + n - 1 - usize_max_plus_1 + 1 * usize_max_plus_1) by lia.
    rewrite N.mod_add by discriminate. apply N.mod_small. lia. }
  rewrite E. rewrite N.div_small by lia. reflexivity.
Qed.
