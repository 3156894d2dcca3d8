(** Property C71: address literals are written in canonical form. *)
From Verif Require Import Bytes Nom Ip Message IpProofs SpecAddr.
Local Open Scope N_scope.

(** ** Numbers *)
Lemma digit_dec d : d < 10 -> digit d = 48 + d.
Proof.
  intros L. assert (H : d = 0 \/ d = 1 \/ d = 2 \/ d = 3 \/ d = 4 \/ d = 5 \/ d = 6 \/ d = 7 \/ d = 8 \/ d = 9) by lia.
  repeat (destruct H as [->|H]; [reflexivity|]). now subst.
Qed.
Lemma digit_hex d : d < 16 -> digit d = hex_digit d.
Proof.
  intros L. destruct (N.ltb_spec d 10) as [H|H].
  - rewrite digit_dec by exact H. unfold hex_digit. apply N.ltb_lt in H. now rewrite H.
  - assert (K : d = 10 \/ d = 11 \/ d = 12 \/ d = 13 \/ d = 14 \/ d = 15) by lia.
    repeat (destruct K as [->|K]; [reflexivity|]). now subst.
Qed.
Lemma digit_inj d e : d < 16 -> e < 16 -> digit d = digit e -> d = e.
Proof.
  intros Hd He. rewrite !digit_hex by assumption. unfold hex_digit.
  destruct (N.ltb_spec d 10), (N.ltb_spec e 10); lia.
Qed.
Lemma u8_numeral n : n < 256 -> numeral 10 n (show_u8 n).
Proof.
  intros L. unfold show_u8.
  pose proof (N.mod_lt n 10 ltac:(lia)) as M. pose proof (N.mod_lt (n / 10) 10 ltac:(lia)) as M'.
  pose proof (N.div_mod n 10 ltac:(lia)) as D. pose proof (N.div_mod (n / 10) 10 ltac:(lia)) as D'.
  assert (Q : n / 100 = n / 10 / 10) by now rewrite N.div_div.
  rewrite Q. clear Q. revert M M' D D'. generalize (n mod 10) as r0, (n / 10 / 10) as q2, ((n / 10) mod 10) as r1. generalize (n / 10) as q1. intros q1 r0 q2 r1 M M' D D'.
  destruct (N.ltb_spec n 10) as [H|H]; [|destruct (N.ltb_spec n 100) as [H'|H']].
  - exists [n]. cbn [map]. rewrite digit_dec by exact H. split; [reflexivity|]. split; [repeat (apply Forall_cons; [lia|]); apply Forall_nil|]. split; [cbn [fold_left]; lia|].
    destruct (N.eq_dec n 0) as [->|Z]; [now left|right; now exists n, []].
  - exists [q1; r0]. cbn [map]. rewrite !digit_dec by lia. split; [reflexivity|]. split; [repeat (apply Forall_cons; [lia|]); apply Forall_nil|]. split; [cbn [fold_left]; lia|].
    right. exists q1, [r0]. split; [reflexivity|lia].
  - exists [q2; r1; r0]. cbn [map]. rewrite !digit_dec by lia. split; [reflexivity|]. split; [repeat (apply Forall_cons; [lia|]); apply Forall_nil|]. split; [cbn [fold_left]; lia|].
    right. eexists _, _. split; [reflexivity|lia].
Qed.
Lemma u16_numeral n : n < 65536 -> numeral 16 n (show_hex n).
Proof.
  intros L. unfold show_hex.
  pose proof (N.mod_lt n 16 ltac:(lia)) as M. pose proof (N.mod_lt (n / 16) 16 ltac:(lia)) as M'. pose proof (N.mod_lt (n / 256) 16 ltac:(lia)) as M''.
  pose proof (N.div_mod n 16 ltac:(lia)) as D. pose proof (N.div_mod (n / 16) 16 ltac:(lia)) as D'. pose proof (N.div_mod (n / 256) 16 ltac:(lia)) as D''.
  assert (Q : n / 256 = n / 16 / 16) by now rewrite N.div_div. assert (Q' : n / 4096 = n / 256 / 16) by now rewrite N.div_div.
  rewrite <- Q in D'. rewrite <- Q' in D''. clear Q' Q. revert M M' M'' D D' D''.
  generalize (n / 4096) as q3, ((n / 256) mod 16) as r2. generalize (n mod 16) as r0, (n / 256) as q2, ((n / 16) mod 16) as r1. generalize (n / 16) as q1. intros q1 r0 q2 r1 q3 r2 M M' M'' D D' D''.
  destruct (N.ltb_spec n 16) as [H|H]; [|destruct (N.ltb_spec n 256) as [H'|H']; [|destruct (N.ltb_spec n 4096) as [H''|H'']]].
  - exists [n]. cbn [map]. rewrite digit_hex by exact H. split; [reflexivity|]. split; [repeat (apply Forall_cons; [lia|]); apply Forall_nil|]. split; [cbn [fold_left]; lia|].
    destruct (N.eq_dec n 0) as [->|Z]; [now left|right; now exists n, []].
  - exists [q1; r0]. cbn [map]. rewrite !digit_hex by lia. split; [reflexivity|]. split; [repeat (apply Forall_cons; [lia|]); apply Forall_nil|]. split; [cbn [fold_left]; lia|].
    right. eexists _, _. split; [reflexivity|lia].
  - exists [q2; r1; r0]. cbn [map]. rewrite !digit_hex by lia. split; [reflexivity|]. split; [repeat (apply Forall_cons; [lia|]); apply Forall_nil|]. split; [cbn [fold_left]; lia|].
    right. eexists _, _. split; [reflexivity|lia].
  - exists [q3; r2; r1; r0]. cbn [map]. rewrite !digit_hex by lia. split; [reflexivity|]. split; [repeat (apply Forall_cons; [lia|]); apply Forall_nil|]. split; [cbn [fold_left]; lia|].
    right. eexists _, _. split; [reflexivity|lia].
Qed.
Lemma show_groups_joined gs : Forall (fun g => g < 65536) gs -> joined 16 (s2b ":") gs (show_groups gs).
Proof.
  intros H. exists (map show_hex gs). split.
  - induction H as [|g gs L H IH]; cbn [map]; constructor; [now apply u16_numeral|exact IH].
  - clear H. induction gs as [|g [|g' gs] IH]; [reflexivity..|]. cbn [show_groups map join]. do 2 f_equal. exact IH.
Qed.

(** ** The zeros *)
Lemma zeros_snoc k : zeros (S k) = zeros k ++ [0].
Proof. unfold zeros. replace (S k) with (k + 1)%nat by lia. now rewrite repeat_app. Qed.
Lemma zeros_length k : length (zeros k) = k.
Proof. apply repeat_length. Qed.
(** [k] zeros at the end, and no more *)
Definition trailing (P : list N) (P0 : list N) (k : nat) : Prop := P = P0 ++ zeros k /\ forall Q, P0 <> Q ++ [0].
Lemma trailing_most P P0 k a j : trailing P P0 k -> P = a ++ zeros j -> (j <= k)%nat.
Proof.
  intros [E N] H. destruct (le_lt_dec j k) as [L|L]; [exact L|exfalso].
  rewrite E in H. clear P E. revert j L H. induction k as [|k IH]; intros j L H.
  - cbn [zeros repeat] in H. rewrite app_nil_r in H. destruct j as [|j]; [lia|]. rewrite zeros_snoc, app_assoc in H. exact (N _ H).
  - destruct j as [|j]; [lia|]. rewrite !zeros_snoc, !app_assoc in H. apply app_inj_tail in H. destruct H as [H _]. apply (IH j); [lia|exact H].
Qed.
Record scanned (P : list N) (lat llen : nat) : Prop := {
  sc_best : exists a b, P = a ++ zeros llen ++ b /\ length a = lat;
  sc_most : forall a k b, P = a ++ zeros k ++ b -> (k <= llen /\ (k = llen -> 0 < k -> lat <= length a))%nat;
  sc_none : llen = 0%nat -> lat = 0%nat
}.
Lemma scan_ok gs : forall P lat llen cat clen P0, scanned P lat llen -> trailing P P0 clen -> ((0 < clen)%nat -> cat = length P0) ->
  forall at' len', find_zero_loop gs (length P) lat llen cat clen = (at', len') -> scanned (P ++ gs) at' len'.
Proof.
  induction gs as [|g gs IH]; intros P lat llen cat clen P0 SC T Hc at' len' E; cbn [find_zero_loop] in E.
  - injection E as <- <-. now rewrite app_nil_r.
  - assert (L : length (P ++ [g]) = Datatypes.S (length P)) by (rewrite app_length; cbn; lia).
    replace (P ++ g :: gs) with ((P ++ [g]) ++ gs) by now rewrite <- app_assoc.
    destruct (N.eqb_spec g 0) as [->|G].
    + assert (Lp : length P = (length P0 + clen)%nat) by (rewrite (proj1 T), app_length, zeros_length; reflexivity).
      set (cat' := if Nat.eqb clen 0 then length P else cat) in E.
      assert (C' : cat' = length P0) by (unfold cat'; destruct (Nat.eqb_spec clen 0); [lia|apply Hc; lia]).
      assert (T' : trailing (P ++ [0]) P0 (Datatypes.S clen)) by (split; [rewrite zeros_snoc, (proj1 T), <- app_assoc; reflexivity|exact (proj2 T)]).
      assert (M : forall a k b, P ++ [0] = a ++ zeros k ++ b ->
                 (b = [] /\ (k <= Datatypes.S clen)%nat /\ (length a + k = length P0 + Datatypes.S clen)%nat) \/ exists b', P = a ++ zeros k ++ b').
      { intros a k b H. destruct b as [|x b] using rev_ind.
        - left. rewrite app_nil_r in H. split; [reflexivity|]. split; [now apply (trailing_most _ _ _ _ _ T' H)|].
          apply (f_equal (@length N)) in H. rewrite !app_length, zeros_length in H. cbn in H. lia.
        - right. exists b. rewrite !app_assoc in H. apply app_inj_tail in H. destruct H as [H _]. now rewrite <- app_assoc in H. }
      destruct (Nat.ltb_spec llen (Datatypes.S clen)) as [K|K]; rewrite <- L in E; revert E; apply IH with (P0 := P0); auto.
      * constructor.
        -- exists P0, []. split; [|now rewrite C']. rewrite app_nil_r. exact (proj1 T').
        -- intros a k b H. destruct (M a k b H) as [(_ & K1 & K2)|[b' H']]; [split; lia|].
           destruct (sc_most _ _ _ SC a k b' H') as [K1 _]. split; lia.
        -- discriminate.
      * constructor.
        -- destruct (sc_best _ _ _ SC) as (a & b & Ea & La). exists a, (b ++ [0]). split; [|exact La]. rewrite Ea, <- !app_assoc. reflexivity.
        -- intros a k b H. destruct (M a k b H) as [(_ & K1 & K2)|[b' H']].
           ++ split; [lia|]. intros -> _. destruct (sc_best _ _ _ SC) as (a' & b' & Ea & La).
              apply (f_equal (@length N)) in Ea. rewrite !app_length, zeros_length in Ea. lia.
           ++ apply (sc_most _ _ _ SC a k b' H').
        -- intros Z. lia.
    + assert (M : forall a k b, P ++ [g] = a ++ zeros k ++ b -> k = 0%nat \/ exists b', P = a ++ zeros k ++ b').
      { intros a k b H. destruct b as [|x b] using rev_ind.
        - destruct k as [|k]; [now left|]. rewrite app_nil_r, zeros_snoc, app_assoc in H. apply app_inj_tail in H. now destruct H.
        - right. exists b. rewrite !app_assoc in H. apply app_inj_tail in H. destruct H as [H _]. now rewrite <- app_assoc in H. }
      rewrite <- L in E; revert E; apply IH with (P0 := P ++ [g]).
      * constructor.
        -- destruct (sc_best _ _ _ SC) as (a & b & Ea & La). exists a, (b ++ [g]). split; [|exact La]. rewrite Ea, <- !app_assoc. reflexivity.
        -- intros a k b H. destruct (M a k b H) as [-> |[b' H']]; [split; lia|]. apply (sc_most _ _ _ SC a k b' H').
        -- apply (sc_none _ _ _ SC).
      * split; [cbn; now rewrite app_nil_r|]. intros Q H. apply app_inj_tail in H. now destruct H.
      * lia.
Qed.
Lemma find_zero_ok gs at' len' : find_zero_slice gs = (at', len') -> scanned gs at' len'.
Proof.
  unfold find_zero_slice. intros H. apply (scan_ok gs [] 0 0 0 0 []); [|split; [reflexivity|intros [|] ?; discriminate]|lia|exact H].
  constructor; [now exists [], []| |reflexivity]. intros a k b E. destruct a; [|discriminate]. destruct k; [split; lia|discriminate].
Qed.

(** ** C71 *)
(** Address literals are written in this form. *)
Theorem C71_written4 : forall a b c d, wf_ipv4 (a, b, c, d) ->
  exists t, domain_send (Addr4 (a, b, c, d)) = s2b "[" ++ t ++ s2b "]" /\ text4 a b c d t.
Proof.
  intros a b c d (Ha & Hb & Hc & Hd). exists (show_ipv4 (a, b, c, d)). split; [reflexivity|].
  exists [show_u8 a; show_u8 b; show_u8 c; show_u8 d]. split; [|reflexivity].
  repeat (apply Forall2_cons; [now apply u8_numeral|]). apply Forall2_nil.
Qed.
Print Assumptions C71_written4.
Lemma groups4 g h : g < 65536 -> h < 65536 -> text4_of_groups g h (show_v4_tail g h).
Proof.
  intros Hg Hh. destruct (C71_written4 _ _ _ _ (v4_tail_wf g h Hg Hh)) as (t & E & T).
  cbn [domain_send] in E. apply app_inv_head, app_inv_tail in E. unfold show_v4_tail. now rewrite E.
Qed.
Lemma all_zero n : forall l, forallb (N.eqb 0) (firstn n l) = true -> (n <= length l)%nat -> l = zeros n ++ skipn n l.
Proof.
  induction n as [|n IH]; intros l H L; [reflexivity|]. destruct l as [|x l]; [cbn in L; lia|]. cbn [firstn forallb] in H. cbn in L.
  apply andb_prop in H. destruct H as [H1 H2]. apply N.eqb_eq in H1. subst x. unfold zeros. cbn [repeat app skipn]. f_equal. apply IH; [exact H2|lia].
Qed.
Lemma zeros_all n l : forallb (N.eqb 0) (firstn n (zeros n ++ l)) = true.
Proof. induction n as [|n IH]; [reflexivity|]. exact IH. Qed.
Theorem C71_written6 : forall a, wf_ipv6 a ->
  exists t, domain_send (Addr6 a) = s2b "[IPv6:" ++ t ++ s2b "]" /\ text6 a t.
Proof.
  intros a [L F]. exists (show_ipv6 a). split; [reflexivity|].
  assert (W : forall i, nth i a 0 < 65536).
  { intros i. destruct (le_lt_dec (length a) i) as [K|K]; [now rewrite nth_overflow|]. rewrite Forall_forall in F. apply F, nth_In. exact K. }
  unfold show_ipv6.
  destruct (forallb (N.eqb 0) (firstn 6 a)) eqn:Z6.
  - apply all_zero in Z6; [|lia]. assert (E : exists g h, a = zeros 6 ++ [g; h]).
    { destruct (skipn 6 a) as [|g [|h [|x l]]] eqn:K; rewrite Z6, app_length, zeros_length in L; cbn in L; try lia. now exists g, h. }
    destruct E as (g & h & ->). pose proof (W 6%nat) as Wg. pose proof (W 7%nat) as Wh. cbn [zeros repeat app nth andb] in *. clear W L.
    destruct (N.eqb_spec g 0) as [->|Hg]; cbn [andb]; [|apply (text6_compatible g h); [now left|now apply groups4]].
    destruct (N.eqb_spec h 0) as [->|Hh]; [|destruct (N.eqb_spec h 1) as [->|Hh']].
    + change (s2b "::") with ([] ++ s2b "::" ++ []). apply (text6_shortened _ [] 8 []); [|split; [reflexivity|]|lia|now exists []|now exists []].
      * intros (g & h & [[E [K|K]]|E]); [injection E as <- <-; lia..|discriminate].
      * intros pre' k' post' E. apply (f_equal (@length N)) in E. rewrite !app_length, zeros_length in E. cbn in *. lia.
    + change (s2b "::1") with ([] ++ s2b "::" ++ s2b "1"). apply (text6_shortened _ [] 7 [1]); [|split; [reflexivity|]|lia|now exists []|].
      * intros (g & h & [[E [K|K]]|E]); [injection E as <- <-; lia..|discriminate].
      * intros pre' k' post' E. split; [|cbn; lia]. destruct post' as [|x post'] using rev_ind.
        -- destruct k' as [|k']; [lia|]. rewrite app_nil_r, zeros_snoc, app_assoc in E. change [0; 0; 0; 0; 0; 0; 0; 1] with ([0; 0; 0; 0; 0; 0; 0] ++ [1]) in E.
           apply app_inj_tail in E. now destruct E.
        -- apply (f_equal (@length N)) in E. rewrite !app_length, zeros_length in E. cbn in *. lia.
      * exists [s2b "1"]. split; [|reflexivity]. constructor; [|constructor]. exists [1]. repeat split; [now repeat constructor|]. right. now exists 1, [].
    + apply (text6_compatible 0 h); [right; lia|now apply groups4].
  - cbn [andb]. destruct (forallb (N.eqb 0) (firstn 5 a) && (nth 5 a 0 =? 65535)) eqn:Z5.
    + apply andb_prop in Z5. destruct Z5 as [Z5 M]. apply N.eqb_eq in M. apply all_zero in Z5; [|lia].
      assert (E : exists g h, a = zeros 5 ++ [65535; g; h]).
      { destruct (skipn 5 a) as [|f [|g [|h [|x l]]]] eqn:K; rewrite Z5, app_length, zeros_length in L; cbn in L; try lia.
        exists g, h. rewrite Z5 in M. cbn in M. now rewrite Z5, M. }
      destruct E as (g & h & ->). apply (text6_mapped g h). apply groups4; [exact (W 6%nat)|exact (W 7%nat)].
    + assert (N4 : ~ holds_ipv4 a).
      { intros (g & h & [[E _]|E]); subst a; [now rewrite zeros_all in Z6|now rewrite zeros_all in Z5]. }
      destruct (find_zero_slice a) as [at' len'] eqn:E. apply find_zero_ok in E. destruct E as [(pre & post & Ea & Lp) M _].
      destruct (Nat.ltb_spec 1 len') as [K|K].
      * subst at'. assert (E1 : firstn (length pre) a = pre) by (rewrite Ea, firstn_app, Nat.sub_diag, firstn_all; apply app_nil_r).
        assert (E2 : skipn (length pre + len') a = post).
        { rewrite Ea, app_assoc, skipn_app, skipn_all2, app_length, zeros_length, Nat.sub_diag; [reflexivity|]. rewrite app_length, zeros_length. lia. }
        rewrite E1, E2. rewrite Ea in F. apply Forall_app in F. destruct F as [F1 F2]. apply Forall_app in F2. destruct F2 as [_ F2].
        apply (text6_shortened a pre len' post); [exact N4| |lia|now apply show_groups_joined..].
        split; [exact Ea|]. intros a' k' b' E'. destruct (M a' k' b' E') as [M1 M2]. split; [exact M1|]. intros ->. apply M2; [reflexivity|lia].
      * apply text6_plain; [exact N4| |now apply show_groups_joined].
        intros a' b' E'. destruct (M a' 2%nat b' E') as [M1 _]. lia.
Qed.
Print Assumptions C71_written6.

(** There is one such text for an address, so equal addresses are written alike,
    whoever writes them. *)
Definition value (base : N) (ds : list N) : N := fold_left (fun v d => v * base + d) ds 0.
Definition leading (ds : list N) : Prop := match ds with [] => True | d :: _ => d <> 0 end.
Lemma value_snoc base ds d : value base (ds ++ [d]) = value base ds * base + d.
Proof. unfold value. now rewrite fold_left_app. Qed.
Lemma leading_snoc ds d : leading (ds ++ [d]) -> leading ds.
Proof. destruct ds; [easy|exact (fun H => H)]. Qed.
Lemma value_zero base ds : 1 < base -> leading ds -> value base ds = 0 -> ds = [].
Proof.
  intros B. induction ds as [|d ds IH] using rev_ind; [reflexivity|]. intros H E. rewrite value_snoc in E.
  assert (E1 : value base ds = 0) by nia. pose proof (IH (leading_snoc _ _ H) E1) as K. subst ds. cbn in H. cbn in E. exfalso. apply H. exact E.
Qed.
Lemma value_unique base ds : 1 < base -> leading ds -> Forall (fun d => d < base) ds ->
  forall ds', leading ds' -> Forall (fun d => d < base) ds' -> value base ds = value base ds' -> ds = ds'.
Proof.
  intros B. induction ds as [|d ds IH] using rev_ind; intros H F ds' H' F' E.
  - symmetry. apply (value_zero base); [exact B|exact H'|symmetry; exact E].
  - destruct ds' as [|d' ds' _] using rev_ind.
    + apply (value_zero base) in E; [|exact B|exact H]. now destruct ds.
    + apply Forall_app in F, F'. destruct F as [F Fd], F' as [F' Fd']. inversion Fd as [|? ? Fd1 _]; subst. inversion Fd' as [|? ? Fd2 _]; subst.
      rewrite !value_snoc in E.
      assert (E1 : value base ds = value base ds') by nia.
      rewrite (IH (leading_snoc _ _ H) F ds' (leading_snoc _ _ H') F' E1). f_equal. f_equal. nia.
Qed.
Lemma numeral_unique base n t t' : 1 < base -> numeral base n t -> numeral base n t' -> t = t'.
Proof.
  intros B (ds & -> & F & V & [-> |(d & l & -> & Z)]) (ds' & -> & F' & V' & [-> |(d' & l' & -> & Z')]).
  - reflexivity.
  - exfalso. change (fold_left _ (d' :: l') 0) with (value base (d' :: l')) in V'. cbn in V. rewrite <- V in V'.
    apply value_zero in V'; [discriminate|exact B|exact Z'].
  - exfalso. change (fold_left _ (d :: l) 0) with (value base (d :: l)) in V. cbn in V'. rewrite <- V' in V.
    apply value_zero in V; [discriminate|exact B|exact Z].
  - f_equal. apply (value_unique base); auto. unfold value. now rewrite V, V'.
Qed.
Lemma joined_unique base sep ns t t' : 1 < base -> joined base sep ns t -> joined base sep ns t' -> t = t'.
Proof.
  intros B (ts & H & ->) (ts' & H' & ->). f_equal. revert ts' H'. induction H as [|n t ns ts Hn H IH]; intros ts' H'; inversion H' as [|? t' ? us' Hn' H'' ]; subst; [reflexivity|].
  f_equal; [now apply (numeral_unique base n)|now apply IH].
Qed.
Lemma run_unique gs pre k post pre' k' post' : first_longest_run gs pre k post -> first_longest_run gs pre' k' post' ->
  pre = pre' /\ k = k' /\ post = post'.
Proof.
  intros [E M] [E' M']. pose proof (M _ _ _ E') as [A1 A2]. pose proof (M' _ _ _ E) as [B1 B2]. assert (k = k') by lia. subst k'.
  assert (L : length pre = length pre') by (specialize (A2 eq_refl); specialize (B2 eq_refl); lia). rewrite E in E'.
  assert (Ep : pre = pre').
  { apply (f_equal (firstn (length pre))) in E'. rewrite firstn_app, Nat.sub_diag, firstn_all, firstn_O, app_nil_r in E'.
    rewrite L, firstn_app, Nat.sub_diag, firstn_all, firstn_O, app_nil_r in E'. exact E'. }
  subst pre'. apply app_inv_head, app_inv_head in E'. auto.
Qed.
Theorem C71_unique : (forall a b c d t t', text4 a b c d t -> text4 a b c d t' -> t = t')
  /\ (forall a t t', text6 a t -> text6 a t' -> t = t').
Proof.
  assert (P4 : forall a b c d t t', text4 a b c d t -> text4 a b c d t' -> t = t') by (intros; now apply (joined_unique 10 (s2b ".") [a; b; c; d])).
  split; [exact P4|]. intros a t t' H H'.
  destruct H as [g h t K T|g h t T|gs t N R T|gs pre k post t u N R K T1 T2].
  - remember (zeros 6 ++ [g; h]) as gs eqn:E. destruct H' as [g' h' t' K' T'|g' h' t' T'|gs t' N' R' T'|gs pre' k' post' t' u' N' R' K' T1' T2'].
    + injection E as -> ->. f_equal. unfold text4_of_groups in *. eapply P4; eassumption.
    + discriminate E.
    + exfalso. apply N'. exists g, h. left. now split.
    + exfalso. apply N'. exists g, h. left. now split.
  - remember (zeros 5 ++ [65535; g; h]) as gs eqn:E. destruct H' as [g' h' t' K' T'|g' h' t' T'|gs t' N' R' T'|gs pre' k' post' t' u' N' R' K' T1' T2'].
    + discriminate E.
    + injection E as -> ->. f_equal. unfold text4_of_groups in *. eapply P4; eassumption.
    + exfalso. apply N'. exists g, h. now right.
    + exfalso. apply N'. exists g, h. now right.
  - destruct H' as [g' h' t' K' T'|g' h' t' T'|gs t' N' R' T'|gs pre' k' post' t' u' N' R' K' T1' T2'].
    + exfalso. apply N. exists g', h'. left. now split.
    + exfalso. apply N. exists g', h'. now right.
    + now apply (joined_unique 16 (s2b ":") gs).
    + exfalso. destruct R' as [E _]. destruct k' as [|[|k']]; [lia..|]. apply (R pre' (zeros k' ++ post')). rewrite E. reflexivity.
  - destruct H' as [g' h' t' K' T'|g' h' t' T'|gs t' N' R' T'|gs pre' k' post' t' u' N' R' K' T1' T2'].
    + exfalso. apply N. exists g', h'. left. now split.
    + exfalso. apply N. exists g', h'. now right.
    + exfalso. destruct R as [E _]. destruct k as [|[|k]]; [lia..|]. apply (R' pre (zeros k ++ post)). rewrite E. reflexivity.
    + destruct (run_unique _ _ _ _ _ _ _ R R') as (<- & <- & <-). f_equal; [|f_equal]; eapply joined_unique; try eassumption; reflexivity.
Qed.
Print Assumptions C71_unique.

(** Cases. *)
Example C71_example : wf_ipv6 [8193; 3512; 0; 0; 1; 0; 0; 10] /\ wf_ipv4 (127, 0, 9, 99)
  /\ map domain_send [Addr4 (127, 0, 9, 99); Addr6 [8193; 3512; 0; 0; 1; 0; 0; 10]; Addr6 [0; 1; 2; 3; 4; 5; 6; 7];
       Addr6 [0; 0; 0; 0; 0; 0; 0; 1]; Addr6 [1; 0; 0; 2; 0; 0; 0; 3]; Addr6 [0; 0; 0; 0; 0; 65535; 49320; 2562]; Addr6 [0; 0; 0; 0; 0; 0; 0; 16]]
     = map s2b ["[127.0.9.99]"; "[IPv6:2001:db8::1:0:0:a]"; "[IPv6:0:1:2:3:4:5:6:7]"; "[IPv6:::1]"; "[IPv6:1:0:0:2::3]"; "[IPv6:::ffff:192.168.10.2]"; "[IPv6:::0.0.0.16]"]%string.
Proof. split; [split; [reflexivity|repeat constructor; reflexivity]|]. split; [repeat split; reflexivity|vm_compute; reflexivity]. Qed.
