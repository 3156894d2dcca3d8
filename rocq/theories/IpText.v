(** The parsers of std::net accept exactly the texts of SpecIp. *)
From Verif Require Import Bytes Ip SpecIp NomLemmas IpProofs.
Local Open Scope N_scope.

(** ** Digits and numbers *)
Lemma parse_digit_spec radix c d : radix = 10 \/ radix = 16 -> parse_digit radix c = Some d <-> digit_value c d /\ d < radix.
Proof.
  intros R. unfold parse_digit, digit_value.
  destruct (N.leb_spec 48 c), (N.leb_spec c 57), (N.leb_spec 97 c), (N.leb_spec 65 c), (N.ltb_spec 10 radix),
    (N.ltb_spec c (97 + (radix - 10))), (N.ltb_spec c (65 + (radix - 10))); cbn [andb];
    (split; [intros E; try discriminate E; injection E as <-|intros [[(K1 & K2)|[(K1 & K2)|(K1 & K2)]] K3]; try (f_equal; lia)]); destruct R; subst; lia.
Qed.
Lemma numeral_fun base s v : numeral base s v -> forall v', numeral base s v' -> v = v'.
Proof.
  induction 1 as [|s v c d H IH D L]; intros v' H'; inversion H' as [E1 E2|s' w c' d' H2 D2 L2 E1 E2].
  - reflexivity.
  - destruct s'; discriminate E1.
  - destruct s; discriminate E1.
  - apply app_inj_tail in E1. destruct E1 as [<- <-]. rewrite (IH _ H2).
    assert (d = d') as -> by (unfold digit_value in *; lia). reflexivity.
Qed.
Lemma numeral_prefix base a b v : 0 < base -> numeral base (a ++ b) v -> exists u, numeral base a u /\ u <= v.
Proof.
  intros B. revert v. induction b as [|c b IH] using rev_ind; intros v H; [rewrite app_nil_r in H; exists v; split; [exact H|lia]|].
  rewrite app_assoc in H. inversion H as [E|s w c' d H2 D L E1 E2]; [destruct (a ++ b); discriminate E|].
  apply app_inj_tail in E1. destruct E1 as [-> ->]. destruct (IH _ H2) as (u & Hu & Le). exists u. split; [exact Hu|]. nia.
Qed.
Lemma numeral_snoc base s c v : numeral base (s ++ [c]) v ->
  exists u d, numeral base s u /\ digit_value c d /\ d < base /\ v = u * base + d.
Proof.
  intros H. inversion H as [E|s' w c' d H2 D L E1 E2]; [destruct s; discriminate E|].
  apply app_inj_tail in E1. destruct E1 as [-> ->]. exists w, d. repeat split; auto.
Qed.
Lemma numeral_digits base s v : base = 10 \/ base = 16 -> numeral base s v -> Forall (fun c => ddigit base c = true) s.
Proof.
  intros B H. induction H as [|s v c d H IH D L]; [constructor|]. apply Forall_app. split; [exact IH|]. constructor; [|constructor].
  unfold ddigit. destruct (parse_digit base c) eqn:E; [reflexivity|].
  assert (K : parse_digit base c = Some d) by (apply parse_digit_spec; auto). congruence.
Qed.

Lemma loop_sound radix maxd upto (R : radix = 10 \/ radix = 16) : forall s pre acc count v r,
  numeral radix pre acc -> length pre = count -> (count <= maxd)%nat -> acc < upto ->
  read_number_loop radix maxd upto s acc count = Some (v, r) ->
  exists ds, s = ds ++ r /\ numeral radix (pre ++ ds) v /\ (1 <= length (pre ++ ds) <= maxd)%nat /\ v < upto /\ stops (ddigit radix) r.
Proof.
  induction s as [|c s IH]; intros pre acc count v r Hn Hl Hm Ha H; cbn [read_number_loop] in H.
  - destruct (Nat.eqb_spec count 0); [discriminate|]. injection H as <- <-. exists []. rewrite (app_nil_r pre).
    split; [reflexivity|]. split; [exact Hn|]. split; [lia|]. split; [exact Ha|exact I].
  - destruct (parse_digit radix c) as [d|] eqn:E.
    + destruct (Nat.ltb_spec maxd (S count)); [discriminate|]. destruct (N.leb_spec upto (acc * radix + d)); [discriminate|].
      cbn [orb] in H. apply parse_digit_spec in E; [|exact R]. destruct E as [E1 E2].
      destruct (IH (pre ++ [c]) (acc * radix + d) (S count) v r) as (ds & -> & K1 & K2 & K3); auto.
      * now constructor.
      * rewrite app_length. cbn. lia.
      * rewrite <- app_assoc in K1, K2. exists (c :: ds). auto.
    + destruct (Nat.eqb_spec count 0); [discriminate|]. injection H as <- <-. exists []. rewrite (app_nil_r pre).
      split; [reflexivity|]. split; [exact Hn|]. split; [lia|]. split; [exact Ha|]. cbn. unfold ddigit. now rewrite E.
Qed.
Lemma loop_complete radix maxd upto (R : radix = 10 \/ radix = 16) : forall ds pre acc count v r,
  numeral radix pre acc -> length pre = count -> numeral radix (pre ++ ds) v -> (1 <= length (pre ++ ds) <= maxd)%nat -> v < upto ->
  stops (ddigit radix) r -> read_number_loop radix maxd upto (ds ++ r) acc count = Some (v, r).
Proof.
  induction ds as [|c ds IH]; intros pre acc count v r Hn Hl Hv Hm Hu Hr.
  - rewrite app_nil_r in Hv, Hm. rewrite (numeral_fun _ _ _ Hv _ Hn) in *. cbn [app]. destruct r as [|c r]; cbn [read_number_loop].
    + destruct (Nat.eqb_spec count 0); [lia|reflexivity].
    + cbn in Hr. unfold ddigit in Hr. destruct (parse_digit radix c); [discriminate|]. destruct (Nat.eqb_spec count 0); [lia|reflexivity].
  - cbn [app read_number_loop]. change (pre ++ c :: ds) with (pre ++ [c] ++ ds) in *. rewrite app_assoc in Hv, Hm.
    destruct (numeral_prefix radix _ _ _ ltac:(destruct R; lia) Hv) as (u & Hu1 & Hu2).
    destruct (numeral_snoc _ _ _ _ Hu1) as (acc' & d & K1 & K2 & K3 & ->). rewrite (numeral_fun _ _ _ K1 _ Hn) in *.
    assert (E : parse_digit radix c = Some d) by (now apply parse_digit_spec). rewrite E.
    assert (L : length (pre ++ [c]) = S count) by (rewrite app_length; cbn; lia).
    assert (L' : (S count <= maxd)%nat) by (rewrite app_length in Hm; lia).
    destruct (Nat.ltb_spec maxd (S count)); [lia|]. destruct (N.leb_spec upto (acc * radix + d)); [lia|]. cbn [orb].
    now apply (IH (pre ++ [c])).
Qed.
Lemma read_number_sound radix maxd upto s v r : radix = 10 \/ radix = 16 -> 0 < upto -> read_number radix maxd upto s = Some (v, r) ->
  exists ds, s = ds ++ r /\ numeral radix ds v /\ (1 <= length ds <= maxd)%nat /\ v < upto.
Proof.
  intros R U H. destruct (loop_sound radix maxd upto R s [] 0 0 v r) as (ds & K1 & K2 & K3 & K4 & _); auto; [apply nu_nil|lia|].
  exists ds. auto.
Qed.
Lemma read_number_complete radix maxd upto ds v r : radix = 10 \/ radix = 16 -> numeral radix ds v -> (1 <= length ds <= maxd)%nat ->
  v < upto -> stops (ddigit radix) r -> read_number radix maxd upto (ds ++ r) = Some (v, r).
Proof. intros R N L U Hr. apply (loop_complete radix maxd upto R ds []); auto. apply nu_nil. Qed.

Lemma numeral_bound base s v : 0 < base -> numeral base s v -> v < base ^ N.of_nat (length s).
Proof.
  intros B H. induction H as [|s v c d H IH D L]; [cbn; lia|]. rewrite app_length. cbn [length].
  rewrite Nat2N.inj_add, N.pow_add_r. cbn [N.of_nat Pos.of_succ_nat]. rewrite N.pow_1_r. nia.
Qed.
Lemma group_bound s v : group_text s v -> v < 65536.
Proof.
  intros [L H]. apply numeral_bound in H; [|lia]. eapply N.lt_le_trans; [exact H|].
  change 65536 with (16 ^ 4). apply N.pow_le_mono_r; lia.
Qed.

(** ** IPv4 *)
Lemma read_octet_sound s v r : read_number 10 3 256 s = Some (v, r) -> exists t, s = t ++ r /\ octet_text t v.
Proof. intros H. apply read_number_sound in H; [|auto|lia]. destruct H as (ds & -> & N & L & B). exists ds. repeat split; auto; lia. Qed.
Lemma read_octet_complete t v r : octet_text t v -> stops (ddigit 10) r -> read_number 10 3 256 (t ++ r) = Some (v, r).
Proof. intros (L & N & B) Hr. apply read_number_complete; auto. Qed.
Lemma given_char c s r : read_given_char c s = Some r <-> s = c :: r.
Proof.
  destruct s as [|x s]; cbn; [split; discriminate|]. destruct (N.eqb_spec x c); split; intros H; try discriminate H; congruence.
Qed.
Lemma read_ipv4_sound s a r : read_ipv4_addr s = Some (a, r) -> exists t, s = t ++ r /\ ipv4_text t a.
Proof.
  unfold read_ipv4_addr.
  destruct (read_number 10 3 256 s) as [[a1 s1]|] eqn:E1; [|discriminate].
  destruct (read_given_char 46 s1) as [s1'|] eqn:D1; [|discriminate].
  destruct (read_number 10 3 256 s1') as [[a2 s2]|] eqn:E2; [|discriminate].
  destruct (read_given_char 46 s2) as [s2'|] eqn:D2; [|discriminate].
  destruct (read_number 10 3 256 s2') as [[a3 s3]|] eqn:E3; [|discriminate].
  destruct (read_given_char 46 s3) as [s3'|] eqn:D3; [|discriminate].
  destruct (read_number 10 3 256 s3') as [[a4 s4]|] eqn:E4; [|discriminate].
  intros H. injection H as <- <-. apply read_octet_sound in E1, E2, E3, E4. apply given_char in D1, D2, D3.
  destruct E1 as (t1 & -> & O1), E2 as (t2 & -> & O2), E3 as (t3 & -> & O3), E4 as (t4 & -> & O4). subst s1 s2 s3.
  exists (intercalate (s2b ".") [t1; t2; t3; t4]). split; [|now constructor].
  cbn [intercalate]. change (s2b ".") with [46]. now rewrite <- !app_assoc.
Qed.
Lemma read_ipv4_complete t a r : ipv4_text t a -> stops (ddigit 10) r -> read_ipv4_addr (t ++ r) = Some (a, r).
Proof.
  intros [t1 t2 t3 t4 a1 a2 a3 a4 O1 O2 O3 O4] Hr. cbn [intercalate]. change (s2b ".") with [46]. rewrite <- !app_assoc. cbn [app].
  unfold read_ipv4_addr. rewrite (read_octet_complete t1 a1) by (auto; reflexivity). cbn [read_given_char N.eqb Pos.eqb].
  rewrite (read_octet_complete t2 a2) by (auto; reflexivity). cbn [read_given_char N.eqb Pos.eqb].
  rewrite (read_octet_complete t3 a3) by (auto; reflexivity). cbn [read_given_char N.eqb Pos.eqb].
  now rewrite (read_octet_complete t4 a4).
Qed.
Theorem ipv4_parses_text s a : ipv4_from_str s = Some a <-> ipv4_text s a.
Proof.
  unfold ipv4_from_str. split.
  - destruct (read_ipv4_addr s) as [[b [|? ?]]|] eqn:E; try discriminate. intros [= <-].
    apply read_ipv4_sound in E. destruct E as (t & -> & H). now rewrite app_nil_r.
  - intros H. rewrite <- (app_nil_r s). now rewrite (read_ipv4_complete s a []).
Qed.

(** ** IPv6 *)
Definition colons (ts : list bytes) : bytes := concat (map (fun t => 58 :: t) ts).
Lemma colon_cons t ts : intercalate (s2b ":") (t :: ts) = t ++ colons ts.
Proof.
  revert t. induction ts as [|u ts IH]; intros t; [cbn; now rewrite app_nil_r|].
  change (intercalate (s2b ":") (t :: u :: ts)) with (t ++ [58] ++ intercalate (s2b ":") (u :: ts)). now rewrite IH.
Qed.
(** Groups, after another one or at the start. *)
Definition written (first : bool) (ts : list bytes) : bytes := if first then intercalate (s2b ":") ts else colons ts.
Lemma written_cons first t ts : written first (t :: ts) = (if first then [] else [58]) ++ t ++ written false ts.
Proof. destruct first; cbn [written app]; [apply colon_cons|reflexivity]. Qed.
Lemma skip_written first s : skip_colon first ((if first then [] else [58]) ++ s) = Some s.
Proof. destruct first; reflexivity. Qed.
Lemma skip_inv first s s' : skip_colon first s = Some s' -> s = (if first then [] else [58]) ++ s'.
Proof. destruct first; cbn; [congruence|]. apply given_char. Qed.

Definition pieces (first v4 : bool) (text : bytes) (gs : list N) : Prop :=
  if v4 then exists ts gs0 x a b c d, Forall2 group_text ts gs0 /\ ipv4_text x (a, b, c, d)
     /\ text = written first (ts ++ [x]) /\ gs = gs0 ++ [a * 256 + b; c * 256 + d]
  else exists ts, Forall2 group_text ts gs /\ text = written first ts.
Lemma read_group_sound s v r : read_number 16 4 65536 s = Some (v, r) -> exists t, s = t ++ r /\ group_text t v.
Proof. intros H. apply read_number_sound in H; [|auto|lia]. destruct H as (ds & -> & N & L & B). exists ds. repeat split; auto; lia. Qed.
Lemma read_groups_sound : forall n first s gs v r, read_groups n first s = (gs, v, r) ->
  exists text, s = text ++ r /\ pieces first v text gs.
Proof.
  induction n as [|n IH]; intros first s gs v r H; cbn [read_groups] in H.
  - injection H as <- <- <-. exists []. split; [reflexivity|]. exists []. split; [constructor|now destruct first].
  - assert (Hg : (match (match skip_colon first s with None => None
                     | Some s' => read_number 16 4 65536 s' end) with
                | None => ([], false, s)
                | Some (g, s') => let '(gs, v, r) := read_groups n false s' in (g :: gs, v, r)
                end) = (gs, v, r) -> exists text, s = text ++ r /\ pieces first v text gs).
    { assert (Z : ([], false, s) = (gs, v, r) -> exists text, s = text ++ r /\ pieces first v text gs).
      { intros [= <- <- <-]. exists []. split; [reflexivity|]. exists []. split; [constructor|now destruct first]. }
      intros E. destruct (skip_colon first s) as [s'|] eqn:Es; [|now apply Z].
      destruct (read_number 16 4 65536 s') as [[g s2]|] eqn:E2; [|now apply Z].
      destruct (read_groups n false s2) as [[gs' v'] r'] eqn:E3. injection E as <- <- <-.
      apply skip_inv in Es. apply read_group_sound in E2. destruct E2 as (t & -> & G). destruct (IH _ _ _ _ _ E3) as (text & -> & P).
      exists ((if first then [] else [58]) ++ t ++ text). split; [subst s; now rewrite <- !app_assoc|]. destruct v'; cbn [pieces] in *.
      - destruct P as (ts & gs0 & x & a & b & c & d & F & X & -> & ->). exists (t :: ts), (g :: gs0), x, a, b, c, d.
        split; [now constructor|]. split; [exact X|]. split; [|reflexivity]. cbn [app]. now rewrite written_cons.
      - destruct P as (ts & F & ->). exists (t :: ts). split; [now constructor|]. now rewrite written_cons. }
    destruct n as [|n']; [now apply Hg|].
    destruct (skip_colon first s) as [s'|] eqn:Es; [|now apply Hg].
    destruct (read_ipv4_addr s') as [[[[[a b] c] d] s4]|] eqn:E4; [|now apply Hg].
    injection H as <- <- <-. apply skip_inv in Es. apply read_ipv4_sound in E4. destruct E4 as (t & -> & X).
    exists ((if first then [] else [58]) ++ t). split; [subst s; now rewrite <- !app_assoc|].
    exists [], [], t, a, b, c, d. split; [constructor|]. split; [exact X|]. split; [|reflexivity].
    cbn [app]. rewrite written_cons. cbn. now rewrite app_nil_r.
Qed.

Lemma group_digits t g : group_text t g -> Forall (fun c => ddigit 16 c = true /\ addr_char c = true) t.
Proof.
  intros [_ H]. apply numeral_digits in H; [|auto]. eapply Forall_impl; [|exact H]. intros c Hc. split; [exact Hc|].
  unfold addr_char. destruct (N.eqb_spec c 93) as [->|]; [discriminate Hc|]. destruct (N.eqb_spec c 58) as [->|]; [discriminate Hc|].
  destruct (N.eqb_spec c 46) as [->|]; [discriminate Hc|]. reflexivity.
Qed.
Lemma group_step n first t g rest : group_text t g -> stops (fun c => ddigit 16 c || (c =? 46)) rest ->
  read_groups (S n) first ((if first then [] else [58]) ++ t ++ rest) = let '(gs, v, r) := read_groups n false rest in (g :: gs, v, r).
Proof.
  intros G Hr. cbn [read_groups]. rewrite skip_written, hex_not_ipv4 by (eauto using group_digits).
  rewrite (read_number_complete 16 4 65536 t g); [destruct n; reflexivity|auto|apply G|apply G|eapply group_bound; eauto|].
  destruct rest as [|c rest]; [exact I|]. cbn in *. now apply orb_false_iff in Hr.
Qed.
Lemma written_stops p ts r : p 58 = false -> okrest r -> stops p (written false ts ++ r).
Proof. intros Hp Hr. destruct ts as [|t ts]; [destruct Hr as [->|(r' & ->)]; cbn; auto|exact Hp]. Qed.
Lemma read_groups_complete : forall ts gs, Forall2 group_text ts gs -> forall n first rest, (length gs <= n)%nat -> okrest rest ->
  read_groups n first (written first ts ++ rest) = (gs, false, rest).
Proof.
  induction 1 as [|t g ts gs G F IH]; intros n first rest Hn Hr.
  - destruct first; cbn [written intercalate colons map concat app]; destruct Hr as [->|(r & ->)]; destruct n as [|[|n]]; reflexivity.
  - cbn [length] in Hn. destruct n as [|n]; [lia|]. rewrite written_cons, <- !app_assoc.
    rewrite (group_step n first t g); [|exact G|now apply written_stops]. rewrite IH; auto. lia.
Qed.
Lemma read_groups_complete_v4 x a b c d : ipv4_text x (a, b, c, d) -> forall ts gs, Forall2 group_text ts gs ->
  forall n first, (length gs + 2 <= n)%nat -> read_groups n first (written first (ts ++ [x])) = (gs ++ [a * 256 + b; c * 256 + d], true, []).
Proof.
  intros X. induction 1 as [|t g ts gs G F IH]; intros n first Hn.
  - cbn [length] in Hn. destruct n as [|[|n]]; [lia|lia|]. cbn [app]. rewrite written_cons. cbn [written colons map concat].
    cbn [read_groups]. rewrite skip_written. now rewrite (read_ipv4_complete x _ [] X I).
  - cbn [length] in Hn. destruct n as [|n]; [lia|]. cbn [app]. rewrite written_cons.
    rewrite (group_step n first t g); [|exact G|]; [rewrite IH by lia; reflexivity|].
    destruct ts; reflexivity.
Qed.
Lemma pieces_text v s gs : pieces true v s gs -> groups_text s gs.
Proof.
  destruct v; cbn [pieces written].
  - intros (ts & gs0 & x & a & b & c & d & F & X & -> & ->). now constructor.
  - intros (ts & F & ->). now constructor.
Qed.
Lemma groups_read n s gs : groups_text s gs -> (length gs <= n)%nat -> exists v, read_groups n true s = (gs, v, []).
Proof.
  intros [ts gs' F|ts gs' x a b c d F X] Hn.
  - exists false. pose proof (read_groups_complete _ _ F n true [] Hn (or_introl eq_refl)) as K. now rewrite app_nil_r in K.
  - exists true. rewrite app_length in Hn. cbn in Hn. apply (read_groups_complete_v4 x a b c d X _ _ F n true). lia.
Qed.
Lemma Some_inj {A} (x y : A) : Some x = Some y -> x = y.
Proof. now intros [=]. Qed.
Theorem ipv6_parses_text s a : ipv6_from_str s = Some a <-> ipv6_text s a.
Proof.
  unfold ipv6_from_str, read_ipv6_addr. split.
  - destruct (read_groups 8 true s) as [[hd v] s1] eqn:E1. destruct (read_groups_wf _ _ _ _ _ _ E1) as [L1 _].
    apply read_groups_sound in E1. destruct E1 as (text & -> & P).
    destruct (Nat.eqb_spec (length hd) 8) as [E8|E8].
    { destruct s1; [|discriminate]. intros [= <-]. rewrite app_nil_r. apply i6_full; [eapply pieces_text; eauto|exact E8]. }
    destruct v; [discriminate|]. destruct (read_given_char 58 s1) as [s2|] eqn:D1; [|discriminate].
    destruct (read_given_char 58 s2) as [s3|] eqn:D2; [|discriminate]. apply given_char in D1, D2. subst s1 s2.
    destruct (read_groups (8 - (length hd + 1)) true s3) as [[tl v] s4] eqn:E2. destruct (read_groups_wf _ _ _ _ _ _ E2) as [L2 _].
    apply read_groups_sound in E2. destruct E2 as (text2 & -> & P2). destruct s4; [|discriminate]. intros E.
    apply Some_inj in E. subst a. destruct P as (ts & F & ->). rewrite app_nil_r. cbn [written].
    replace (8 - length hd - length tl)%nat with (8 - (length hd + length tl))%nat by lia.
    apply (i6_zeros ts hd text2 tl); [exact F|eapply pieces_text; eauto|lia].
  - intros [s' gs G L|ts hs s' gs F G L].
    + destruct (groups_read 8 s' gs G) as (v & ->); [lia|]. now rewrite L.
    + change (intercalate (s2b ":") ts) with (written true ts). change (s2b "::") with [58; 58].
      rewrite (read_groups_complete _ _ F 8 true ([58; 58] ++ s')); [|lia|right; now exists s'].
      destruct (Nat.eqb_spec (length hs) 8); [lia|]. cbn [app read_given_char N.eqb Pos.eqb].
      destruct (groups_read (8 - (length hs + 1)) s' gs G) as (v & ->); [lia|].
      replace (8 - length hs - length gs)%nat with (8 - (length hs + length gs))%nat by lia. reflexivity.
Qed.

(** The texts are made of hexadecimal digits, dots and colons. *)
Lemma numeral_chars base s v : base = 10 \/ base = 16 -> numeral base s v -> addr_text s.
Proof.
  intros B H. apply numeral_digits in H; [|exact B]. eapply Forall_impl; [|exact H]. intros c Hc. unfold addrc.
  destruct B; subst; [rewrite (ddigit_10_16 _ Hc)|rewrite Hc]; reflexivity.
Qed.
Lemma intercalate_chars sep ts : addr_text sep -> Forall addr_text ts -> addr_text (intercalate sep ts).
Proof.
  intros Hs. induction ts as [|t [|u ts] IH]; intros F; [constructor|now inversion F|]. inversion F; subst.
  cbn [intercalate]. apply addr_text_app; [assumption|]. apply addr_text_app; [exact Hs|]. now apply IH.
Qed.
Lemma ipv4_text_chars s a : ipv4_text s a -> addr_text s.
Proof.
  intros [t1 t2 t3 t4 a1 a2 a3 a4 O1 O2 O3 O4]. apply intercalate_chars; [now apply addr_lit|].
  repeat constructor; eapply (numeral_chars 10); auto; [apply O1|apply O2|apply O3|apply O4].
Qed.
Lemma groups_chars ts gs : Forall2 group_text ts gs -> Forall addr_text ts.
Proof. induction 1 as [|t g ts gs [_ G] F IH]; constructor; auto. eapply (numeral_chars 16); eauto. Qed.
Lemma ipv6_text_chars s a : ipv6_text s a -> addr_text s.
Proof.
  assert (K : forall s gs, groups_text s gs -> addr_text s).
  { intros x gs [ts gs' F|ts gs' y b c d e F Y]; (apply intercalate_chars; [now apply addr_lit|]).
    - eapply groups_chars; eauto.
    - apply Forall_app. split; [eapply groups_chars; eauto|]. constructor; [eapply ipv4_text_chars; eauto|constructor]. }
  intros [x gs G L|ts hs x gs F G L]; [eapply K; eauto|]. apply addr_text_app; [|apply addr_text_app; [now apply addr_lit|eapply K; eauto]].
  apply intercalate_chars; [now apply addr_lit|]. eapply groups_chars; eauto.
Qed.
